{
 "claims": [
  {
   "property": "C01",
   "status": "proved",
   "theorems": [
    "c01_first_order_sum",
    "c01_second_order_sum",
    "c01_second_order_offset_sum",
    "c01_range"
   ],
   "note": "All integer bounds (empty ranges included) and all real means; doubles idealised as reals."
  },
  {
   "property": "C02",
   "status": "proved",
   "theorems": [
    "c02_overlap_counts",
    "c02_overlap_positive",
    "c02_no_product_overlap_refuted",
    "c02_overlap_of_reaction"
   ],
   "note": "Holds for every reaction with at least one product. Refuted when there is no product: the code then uses overlap 1 although several balanced pairs can exist."
  },
  {
   "property": "C03",
   "status": "proved",
   "theorems": [
    "c03_reflected_interval",
    "c03_reflected_size",
    "c03_reflected_two",
    "c03_reflected_six",
    "c03_projection",
    "c03_dispersion",
    "c03_dispersion_many"
   ],
   "note": "One, two and three vacancy-type species."
  },
  {
   "property": "C04",
   "status": "proved",
   "theorems": [
    "c04_first_order",
    "c04_second_order",
    "c04_second_order_offset",
    "c04_third_order",
    "c04_mixed_second_order",
    "c04_mixed_third_order"
   ],
   "note": "All four helper sums and the two sums written inline in computeCoefficients."
  },
  {
   "property": "C44",
   "status": "proved",
   "theorems": [
    "c44_base",
    "c44_recurrence",
    "c44_at_one",
    "c44_parity",
    "c44_at_minus_one",
    "c44_expansion"
   ],
   "note": "Non-negative degrees."
  },
  {
   "property": "C05",
   "status": "partial",
   "theorems": [
    "c05_coefficients",
    "c05_flux_is_microscopic",
    "c05_microscopic_reactions",
    "c05_first_moment_flux_is_microscopic_partial",
    "c05_conserved_partial",
    "c05_conserved_first_axis",
    "c05_conserved_ungrouped",
    "c05_coefficients_refuted",
    "c05_conserved_refuted"
   ],
   "note": "Proved: the zeroth-moment flux is the microscopic sum for any number of axes; conservation on the first axis, on every axis of ungrouped networks, and on axis k when no earlier axis carries a first moment. The unrestricted statement is refuted: computeCoefficients reads coefficients before writing them when two axes are grouped."
  },
  {
   "property": "C06",
   "status": "proved",
   "theorems": [
    "c06_jacobian"
   ],
   "note": "Every row and column. Assumes a missing first product implies a missing second one (the code packs products from the front)."
  },
  {
   "property": "C07",
   "status": "proved",
   "theorems": [
    "c07_coefficients",
    "c07_flux_is_microscopic",
    "c07_conserved",
    "c07_jacobian"
   ],
   "note": "Any number of grouped axes."
  },
  {
   "property": "C08",
   "status": "partial",
   "theorems": [
    "c08_production",
    "c08_dissociation_partial",
    "c08_dissociation_refuted"
   ],
   "note": "Production: equality with the diagonal, in full. Dissociation: only when both products are grouped on the same axes; otherwise refuted (guard tests the first product's moment id)."
  },
  {
   "property": "C09",
   "status": "proved",
   "theorems": [
    "c09_conserved",
    "c09_jacobian",
    "c09_contained",
    "c09_reduced_refuted"
   ],
   "note": "The routines of the re-solution have the text of those of the dissociation. The reduced Jacobian part is refuted."
  },
  {
   "property": "C12",
   "status": "partial",
   "theorems": [
    "c12_trap_mutation",
    "c12_trap_mutation_reduced",
    "c12_nucleation",
    "c12_nucleation_reduced",
    "c12_sink",
    "c12_production",
    "c12_production_reduced",
    "c12_dissociation",
    "c12_dissociation_reduced_partial",
    "c12_dissociation_reduced_refuted",
    "c12_reduced_is_diagonal",
    "c12_dissociation_reduced_is_diagonal"
   ],
   "note": "Holds for production (full and reduced), dissociation (full), trap mutation, nucleation and sinks; for the reduced dissociation only when both products are grouped on the same axes, refuted otherwise."
  },
  {
   "property": "C10",
   "status": "proved",
   "theorems": [
    "c10_conserved",
    "c10_rate",
    "c10_continuous",
    "c10_jacobian",
    "c10_reduced",
    "c10_law"
   ],
   "note": "All concentrations and rates; Jacobian off the switch point."
  },
  {
   "property": "C11",
   "status": "partial",
   "theorems": [
    "c11_conserved",
    "c11_active_iff",
    "c11_jacobian_partial",
    "c11_reduced",
    "c11_share",
    "c11_jacobian_refuted",
    "c11_fast"
   ],
   "note": "Conservation (for any weight with w(HeV)+w(I)=w(He)), activation, share of the desorbing cluster and reduced Jacobian hold. The Jacobian is exact for a fixed left-side rate; the code's left-side rate depends on the concentrations, so the full statement is refuted for the desorbing cluster."
  },
  {
   "property": "C17",
   "status": "partial",
   "theorems": [
    "c17_first_reactant_inside",
    "c17_no_reactant_inside",
    "c17_second_reactant_inside_partial",
    "c17_dissociation_outside",
    "c17_dissociation_inside_partial",
    "c17_trap_mutation_partial",
    "c17_second_reactant_inside_refuted",
    "c17_both_reactants_inside_refuted",
    "c17_dissociation_inside_refuted",
    "c17_trap_mutation_refuted"
   ],
   "note": "Every membership pattern is either proved for all moments or refuted with a witness (second reactant inside with several axes, both reactants inside, dissociation with grouped first product, trap-mutation bubble)."
  },
  {
   "property": "C46",
   "status": "partial",
   "theorems": [
    "c46_left_side_partial",
    "c46_self_reaction_refuted",
    "c46_sink",
    "c46_dissociation_partial",
    "c46_dissociation_flux"
   ],
   "note": "Holds for ungrouped clusters with distinct reactants; refuted for self-reactions (counted once, the loss is twice)."
  },
  {
   "property": "C47",
   "status": "partial",
   "theorems": [
    "c47_selected_iff",
    "c47_every_depth_selected",
    "c47_only_one_refuted"
   ],
   "note": "Every depth is enabled at some grid point; a depth on a grid point is enabled at two (the 0.01 tolerance overlaps)."
  },
  {
   "property": "C13",
   "status": "proved",
   "theorems": [
    "c13_connectivity",
    "c13_terminates"
   ],
   "note": "Any number of threads, any interleaving of the atomic steps, any order of the counting increments. Sequentially consistent atomics."
  },
  {
   "property": "C14",
   "status": "proved",
   "theorems": [
    "c14_reaction_storage",
    "c14_terminates"
   ],
   "note": "Any number of threads and interleaving; both the production and the dissociation arrays are instances."
  },
  {
   "property": "C15",
   "status": "partial",
   "theorems": [
    "c15_constructed",
    "c15_history",
    "c15_history_partial",
    "c15_history_refuted"
   ],
   "note": "Exact description of what is visited after any history. The full property holds after construction and for histories which do not end with more elements; refuted for growth and for default construction."
  },
  {
   "property": "C16",
   "status": "proved",
   "theorems": [
    "c16_moment_ids",
    "c16_slot_maps",
    "c16_shared_slot_refuted",
    "c16_slots_inside"
   ],
   "note": "Any non-decreasing slot map (all networks) and clusters whose grouped axes use different slots; without the latter an unknown is lost (refuted)."
  },
  {
   "property": "C18",
   "status": "partial",
   "theorems": [
    "c18_psi",
    "c18_zr",
    "c18_zr_basal",
    "c18_psi_clustering",
    "c18_alloy_vacancy_loop",
    "c18_alloy_perfect_faulted_refuted",
    "c18_alloy_perfect_faulted_wrap_refuted",
    "c18_alloy_interstitial_faulted_refuted",
    "c18_alloy_interstitial_faulted_partial",
    "c18_alloy_perfect_faulted_partial"
   ],
   "note": "Holds for PSI and Zr (grouped or not) and for the Alloy vacancy + loop branches, for every tiling of the size axes; refuted for the Alloy branches perfect + faulted/void and interstitial + faulted/void."
  },
  {
   "property": "C19",
   "status": "partial",
   "theorems": [
    "c19_accept_partial",
    "c19_accept_no_interstitial",
    "c19_products",
    "c19_trap_mutation",
    "c19_accept_refuted",
    "c19_accept_interstitial_product_refuted",
    "c19_trap_mutation_gap_refuted"
   ],
   "note": "Full equivalence when both reactants are free of interstitials (any number of species), including the trap-mutation search; with an interstitial reactant only when the vacancy bounds do not wrap and the product has no interstitial, refuted otherwise."
  },
  {
   "property": "C20",
   "status": "partial",
   "theorems": [
    "c20_burst_partial",
    "c20_vacancies_partial",
    "c20_burst_ungrouped",
    "c20_moment_refuted",
    "c20_vacancy_group_refuted",
    "c20_interstitial_group_refuted"
   ],
   "note": "Holds for every ungrouped network, and for networks whose groups are mixed clusters with zero moments. Refuted for non-zero moments, for groups of pure vacancies (lost) and for groups of pure interstitials (invalid cluster used)."
  },
  {
   "property": "C21",
   "status": "partial",
   "theorems": [
    "c21_concentration",
    "c21_radius",
    "c21_atoms_partial",
    "c21_atoms_defect",
    "c21_trapped_partial",
    "c21_getTotals",
    "c21_trapped_agree_partial",
    "c21_atoms_refuted",
    "c21_cut_refuted",
    "c21_trapped_refuted",
    "c21_trapped_agree_refuted",
    "c21_ratio_refuted",
    "c21_variance_refuted",
    "c21_ratio_partial",
    "c21_variance_partial",
    "c21_no_vacancies"
   ],
   "note": "Concentration and radius totals are exact for all moments unless the minimum size cuts a group; atom totals only when the moments of the counted axis vanish (the missing term is given exactly). Refuted: atoms with moments, cut groups, several vacancy species, ratio with a third grouped axis."
  },
  {
   "property": "C22",
   "status": "partial",
   "theorems": [
    "c22_query_partial",
    "c22_sum",
    "c22_monotone",
    "c22_capped",
    "c22_saturated",
    "c22_stepper",
    "c22_terminates",
    "c22_query_refuted",
    "c22_cap_refuted",
    "c22_unlimited_refuted"
   ],
   "note": "Accumulated sums always agree with stepping; the queried value agrees when the initial step number is 0 and the initial step does not exceed the maximum; both exclusions are refuted. Exact real arithmetic."
  },
  {
   "property": "C23",
   "status": "partial",
   "theorems": [
    "c23_once_partial",
    "c23_constant_step",
    "c23_time_written",
    "c23_twice_refuted",
    "c23_unlimited_refuted"
   ],
   "note": "One restart from any point, any growth; any number of restarts with growth factor 1; refuted for two restarts with growth. Rounding of the written values is not modelled."
  },
  {
   "property": "C24",
   "status": "partial",
   "theorems": [
    "c24_interpolates",
    "c24_knot",
    "c24_outside",
    "c24_continuous",
    "c24_monotone",
    "c24_bounded",
    "c24_custom_refuted"
   ],
   "note": "Full for the lookup function shared by the three handlers (the bounds even for unsorted tables); refuted for the custom flux handler, which clears its amplitudes."
  },
  {
   "property": "C25",
   "status": "partial",
   "theorems": [
    "c25_total_partial",
    "c25_total_norm",
    "c25_recompute",
    "c25_shape",
    "c25_ends",
    "c25_fluence",
    "c25_missed_refuted",
    "c25_negative_refuted"
   ],
   "note": "Holds whenever the discrete integral of the fit is positive, in particular for fits non-negative at the cell centres and positive at one; refuted for fits positive only between centres."
  },
  {
   "property": "C26",
   "status": "proved",
   "theorems": [
    "c26_jacobian_1d",
    "c26_jacobian_2d",
    "c26_jacobian_3d",
    "c26_consistent_1d",
    "c26_linear_constant",
    "c26_square_constant",
    "c26_consistent_2d",
    "c26_consistent_3d"
   ],
   "note": "All spacings, masks, coefficients and concentrations; consistency on all quadratic profiles (1D also with a linearly varying coefficient)."
  },
  {
   "property": "C27",
   "status": "partial",
   "theorems": [
    "c27_surface",
    "c27_grain_boundary_partial",
    "c27_origin_side_partial",
    "c27_far_side_refuted",
    "c27_x_sink_refuted",
    "c27_x_one_dimension_refuted",
    "c27_surface_flux",
    "c27_sink_flux"
   ],
   "note": "Exact for the surface, and for grain boundaries where the value is written and the stencil announced for the point itself. Refuted: grain boundaries across y, z beyond the boundary (stencil announced for y=z=0), across x on the sink (nothing written in 2D/3D, exception in 1D)."
  },
  {
   "property": "C28",
   "status": "partial",
   "theorems": [
    "c28_concentrations_partial",
    "c28_temperatures",
    "c28_vanishing_refuted",
    "c28_temperatures_refuted"
   ],
   "note": "Exact in the concentrations unless all three are near zero; the temperature derivatives are given but never entered in the matrix (refuted)."
  },
  {
   "property": "C32",
   "status": "partial",
   "theorems": [
    "c32_assembled_partial",
    "c32_inside_partial",
    "c32_unequal_handlers_refuted",
    "c32_first_point_refuted",
    "c32_diffusion_row",
    "c32_diffusion_excluded",
    "c32_surface_row",
    "c32_sink_row_partial",
    "c32_announced",
    "c32_room"
   ],
   "note": "1-D solver. Holds for handlers with equal numbers of clusters and an empty region on the left (or a process without point 0); both exclusions are refuted."
  },
  {
   "property": "C33",
   "status": "partial",
   "theorems": [
    "c33_no_sink",
    "c33_shifted_1d",
    "c33_shifted_2d",
    "c33_shifted_3d",
    "c33_intended_partial",
    "c33_not_diffusing",
    "c33_point_refuted",
    "c33_last_column_refuted",
    "c33_id_refuted",
    "c33_wrong_cluster_refuted",
    "c33_advection_grid_refuted"
   ],
   "note": "Exact description of the mask in 1D, 2D and 3D; it is the intended one without sinks, and for y/z grain boundaries away from the last local column when diffusing clusters are numbered 0..k-1. Otherwise refuted: shifted by one point in x, indexed by the cluster id."
  },
  {
   "property": "C48",
   "status": "partial",
   "theorems": [
    "c48_diffusion",
    "c48_diffusion_cells_partial",
    "c48_surface_advection",
    "c48_grain_boundary",
    "c48_cells_refuted",
    "c48_varying_coefficient_refuted",
    "c48_grain_boundary_between_refuted",
    "c48_position"
   ],
   "note": "1D diffusion with constant coefficient, surface advection with constant temperature, grain-boundary columns on a uniform spacing. Refuted: cell widths with jumps, varying coefficients, grain boundaries between grid lines."
  },
  {
   "property": "C49",
   "status": "partial",
   "theorems": [
    "c49_once_partial",
    "c49_exactly_once",
    "c49_twice_refuted",
    "c49_robin_twice_refuted"
   ],
   "note": "1-D solver. Holds with an empty region on the left (and on the right for Robin conditions); twice otherwise."
  },
  {
   "property": "C50",
   "status": "partial",
   "theorems": [
    "c50_diffusion_partial",
    "c50_constant",
    "c50_surface_advection",
    "c50_steep_refuted",
    "c50_soret_refuted"
   ],
   "note": "Holds for diffusion with bounded coefficient steps and surface advection; refuted for steep coefficients and for Soret diffusion."
  },
  {
   "property": "C29",
   "status": "partial",
   "theorems": [
    "c29_interior_partial",
    "c29_neighbours_partial",
    "c29_diagonal",
    "c29_diagonal_iff",
    "c29_dimensions_refuted",
    "c29_surface_refuted",
    "c29_portion_refuted",
    "c29_bulk_flux_refuted",
    "c29_interface_refuted"
   ],
   "note": "Exact for 1-D interior points and for all neighbour entries; the defect of the diagonal is given exactly and is non-zero at the surface, at the bulk end, at the interface and in 2-D/3-D (refuted)."
  },
  {
   "property": "C51",
   "status": "partial",
   "theorems": [
    "c51_positive_partial",
    "c51_hot_refuted",
    "c51_room"
   ],
   "note": "Proved on [0 K, 3000 K]; refuted between 3250 K and the melting point 3695 K."
  },
  {
   "property": "C30",
   "status": "partial",
   "theorems": [
    "c30_grow",
    "c30_shrink",
    "c30_history",
    "c30_first_uniform",
    "c30_first_nonuniform",
    "c30_first_geometric",
    "c30_first_read",
    "c30_first_cheby_refuted",
    "c30_nonuniform_spacing",
    "c30_geometric_spacing",
    "c30_cheby_partial"
   ],
   "note": "Grid moves: single moves and all histories; initial grids of all types, refuted for the Chebyshev type."
  },
  {
   "property": "C42",
   "status": "partial",
   "theorems": [
    "c42_up",
    "c42_retreat",
    "c42_retreat_ends",
    "c42_back_iff",
    "c42_back_one_partial",
    "c42_back_two_refuted",
    "c42_trigger",
    "c42_event_moves"
   ],
   "note": "1-D monitor with left offset 1. Advance: proved. Retreat: holds exactly when the removed points are spaced like those before them; refuted for a retreat of two points."
  },
  {
   "property": "C53",
   "status": "partial",
   "theorems": [
    "c53_affine",
    "c53_interpolates_partial",
    "c53_nonnegative_partial",
    "c53_same_place",
    "c53_uniform_up",
    "c53_uniform_back",
    "c53_extrapolation_refuted",
    "c53_near_refuted",
    "c53_retreat_refuted",
    "c53_elsewhere",
    "c53_new_surface"
   ],
   "note": "1-D solver, one component; the messages between processes are not modelled. Exact for affine profiles and uniform grids; refuted above the old surface, within 1e-4 nm below an old point, and at the first point after a retreat."
  },
  {
   "property": "C31",
   "status": "partial",
   "theorems": [
    "c31_gathered",
    "c31_after_growth_refuted"
   ],
   "note": "Holds for interpolateTemperature, any partition into non-empty pieces; refuted for generateTemperatureGrid, which is called with the new number of points after the grid has grown."
  },
  {
   "property": "C52",
   "status": "partial",
   "theorems": [
    "c52_linear_partial",
    "c52_behind",
    "c52_bounds",
    "c52_same_grid",
    "c52_left_ghost_refuted"
   ],
   "note": "Linear interpolation for every point covered by the other grid, last temperature behind it, no new extremes; refuted for the point left of the surface, which receives the temperature behind the bulk end. That the temperature grid covers the network grid is not proved."
  },
  {
   "property": "C34",
   "status": "partial",
   "theorems": [
    "c34_names",
    "c34_statistics",
    "c34_negative_refuted",
    "c34_hardware_partial",
    "c34_hardware_refuted"
   ],
   "note": "Names, and statistics of timers and counters: proved for non-negative values (the maximum of negative values is refuted). Hardware counters: proved when all processes knowing an object have the same counters in it, refuted otherwise."
  },
  {
   "property": "C35",
   "status": "partial",
   "theorems": [
    "c35_value",
    "c35_misuse",
    "c35_since_reset",
    "c35_os",
    "c35_papi",
    "c35_epoch_refuted",
    "c35_backwards_refuted"
   ],
   "note": "All histories whose clock readings never equal the time stamp meaning 'not running'; refuted for that reading (the epoch for OSTimer) and, as an elapsed time, for a clock set backwards."
  },
  {
   "property": "C36",
   "status": "partial",
   "theorems": [
    "c36_last",
    "c36_none",
    "c36_contents_partial",
    "c36_designates_partial",
    "c36_crash_refuted",
    "c36_wrong_group_refuted"
   ],
   "note": "The last group: proved for all histories. Contents: proved when only groups of control step 0 are added again; refuted otherwise."
  },
  {
   "property": "C37",
   "status": "proved",
   "theorems": [
    "c37_roundtrip",
    "c37_any_readers",
    "c37_empty_refuted"
   ],
   "note": "All decompositions into non-empty pieces; a process without points is refuted (back() of an empty vector). 32-bit wrap of the item offsets is not modelled."
  },
  {
   "property": "C38",
   "status": "partial",
   "theorems": [
    "c38_entry",
    "c38_restored",
    "c38_close_partial",
    "c38_stale_refuted",
    "c38_temperature_refuted"
   ],
   "note": "1-D solver. Values above the cut-off are restored; stale values remain where the exported value is below it (refuted), and the network keeps its old temperatures (refuted)."
  },
  {
   "property": "C39",
   "status": "partial",
   "theorems": [
    "c39_monotone",
    "c39_table",
    "c39_above",
    "c39_defined",
    "c39_ratio_above",
    "c39_ratio_partial",
    "c39_ratio_refuted",
    "c39_wrap_refuted"
   ],
   "note": "Monotone for all ratios while the sum fits 32 bits; the requested ratio is honoured above the table, and within it up to 4; refuted for larger ratios and when the amount wraps."
  },
  {
   "property": "C45",
   "status": "partial",
   "theorems": [
    "c45_law",
    "c45_alloy_law",
    "c45_alloy_spheres",
    "c45_zr_spheres",
    "c45_zr_law",
    "c45_ne_law",
    "c45_window",
    "c45_window_energy",
    "c45_positive",
    "c45_proportional",
    "c45_decreasing",
    "c45_hotter",
    "c45_zero",
    "c45_balance_iff",
    "c45_forward_psi",
    "c45_forward_alloy",
    "c45_forward_zr_partial",
    "c45_forward_zr_refuted",
    "c45_binding_symmetric",
    "c45_psi_balance_partial",
    "c45_cutoff_refuted",
    "c45_hydrogen_refuted",
    "c45_ne_balance",
    "c45_ne_order_refuted",
    "c45_ne_creation_refuted"
   ],
   "note": "The rate law of the statement is proved for all real arguments; detailed balance with the forward reaction is proved for PSI clusters with tabulated energies above the cut-off, for Alloy and for NE, and refuted for the cut-off, for hydrogen in larger clusters, for two loops in Zr, and for the NE creation reaction."
  },
  {
   "property": "C54",
   "status": "partial",
   "theorems": [
    "c54_in_table_partial",
    "c54_twelve_refuted"
   ],
   "note": "Clusters of a single composition: holds for every one the generator selects except twelve hydrogen atoms in two vacancies without helium, which is refuted."
  },
  {
   "property": "C40",
   "status": "partial",
   "theorems": [
    "c40_moment_order",
    "c40_map",
    "c40_injective",
    "c40_partition",
    "c40_back",
    "c40_missing_refuted"
   ],
   "note": "All networks with distinct bounds whose sub-network clusters occur in the full network, any moment layout; a missing cluster shifts the map (refuted)."
  },
  {
   "property": "C41",
   "status": "proved",
   "theorems": [
    "c41_rows"
   ],
   "note": "All matrices of flags."
  },
  {
   "property": "C43",
   "status": "partial",
   "theorems": [
    "c43_fields",
    "c43_next",
    "c43_end",
    "c43_defined",
    "c43_number",
    "c43_plus",
    "c43_blank_refuted",
    "c43_indented_refuted",
    "c43_number_refuted"
   ],
   "note": "All streams, delimiters and comment marks; refuted: no tokens also for a blank line, comments behind white space, and numbers which are not read completely."
  },
  {
   "property": "C55",
   "status": "partial",
   "theorems": [
    "c55_array",
    "c55_temp_grid",
    "c55_net_partial",
    "c55_net_refuted",
    "c55_grouping_partial",
    "c55_grouping_refuted",
    "c55_pulse_partial",
    "c55_pulse_refuted",
    "c55_boundaries_partial",
    "c55_dropped_refuted",
    "c55_coupling",
    "c55_rng_partial",
    "c55_rng_refuted",
    "c55_initial_partial",
    "c55_initial_refuted",
    "c55_grain_partial",
    "c55_grain_refuted",
    "c55_same_as_array",
    "c55_petsc_partial",
    "c55_petsc_refuted"
   ],
   "note": "Full for temperature, grid and coupling parameters; for the others lists of the documented lengths; refuted for all other lengths."
  },
  {
   "property": "C56",
   "status": "partial",
   "theorems": [
    "c56_partial",
    "c56_string_refuted"
   ],
   "note": "All files whose strings contain no #, // or /*; refuted for the others."
  },
  {
   "property": "C57",
   "status": "partial",
   "theorems": [
    "c57_string",
    "c57_list_partial",
    "c57_list_refuted"
   ],
   "note": "Full when the option is a string; for a JSON array with fresh options; refuted for a second or an empty array."
  },
  {
   "property": "C58",
   "status": "partial",
   "theorems": [
    "c58_psi",
    "c58_psi_zero_axes",
    "c58_psi_no_loss",
    "c58_psi_groups",
    "c58_ne",
    "c58_ne_no_loss_partial",
    "c58_ne_no_loss_refuted",
    "c58_fe",
    "c58_fe_no_loss",
    "c58_zr",
    "c58_zr_no_loss",
    "c58_alloy",
    "c58_alloy_no_loss"
   ],
   "note": "Single compositions: full equivalence in the five networks. No loss in groups: PSI, Fe, Zr, Alloy; NE only when grouping starts at nine or later, refuted below. plsm is not modelled: a leaf is any region not cut further by the flags of refine."
  },
  {
   "property": "C59",
   "status": "partial",
   "theorems": [
    "c59_adapt",
    "c59_endless_refuted",
    "c59_alloy_default_refuted",
    "c59_psi_covers_partial",
    "c59_psi_covers_refuted",
    "c59_psi_hydrogen_refuted",
    "c59_psi_levels",
    "c59_psi_levels_refuted",
    "c59_gas",
    "c59_zr",
    "c59_alloy_partial",
    "c59_alloy_no_interstitials",
    "c59_alloy_void_refuted"
   ],
   "note": "Holds for widths of at least two, for NE, Fe, Zr, and Alloy with vacancies and interstitials; for PSI when the pure sizes fit under the helium bound of the largest bubble. Refuted: widths 0 and 1 (the defaults, endless loop), pure helium without bubbles, hydrogen without helium in a fully grouped network, fewer pure vacancies than bubbles, Alloy voids without vacancies."
  },
  {
   "property": "C60",
   "status": "partial",
   "theorems": [
    "c60_psi",
    "c60_psi_who",
    "c60_psi_parameters",
    "c60_psi_group_parameters",
    "c60_psi_coefficient",
    "c60_interstitials_slow",
    "c60_group_partial",
    "c60_group_refuted",
    "c60_fe",
    "c60_fe_coefficient",
    "c60_zr_parameters",
    "c60_fe_parameters",
    "c60_alloy_parameters",
    "c60_zr_who",
    "c60_zr_mixed",
    "c60_zr_partial",
    "c60_zr_refuted",
    "c60_zr_coefficient",
    "c60_alloy_who",
    "c60_alloy_mixed",
    "c60_alloy_partial",
    "c60_alloy_refuted",
    "c60_ne",
    "c60_ne_immobile",
    "c60_ne_small_refuted"
   ],
   "note": "Full for PSI singles, Fe, and NE above 2^-52; refuted for Zr I9 and Alloy perfect loops of 70 or more (a migration energy, but no diffusion), for PSI groups of interstitials starting below 6, and for tiny NE diffusivities. Slower interstitials: up to 10000 K."
  },
  {
   "property": "C61",
   "status": "partial",
   "theorems": [
    "c61_psi_law",
    "c61_psi_grows",
    "c61_psi_mixed",
    "c61_psi_group",
    "c61_fe_vacancies",
    "c61_fe_helium",
    "c61_fe_interstitial",
    "c61_fe_group",
    "c61_ne_law",
    "c61_ne_point",
    "c61_ne_vacancies_refuted",
    "c61_ne_group",
    "c61_alloy_volume",
    "c61_alloy_group",
    "c61_zr_grows",
    "c61_zr_group_partial",
    "c61_zr_group_refuted"
   ],
   "note": "All sizes and lattice parameters for PSI, Fe, Alloy; NE with gas; refuted for NE V1 and V2 (same radius) and for Zr groups over size 10. In Zr the radii are fitted (no volume law), growth is proved."
  },
  {
   "property": "C62",
   "status": "partial",
   "theorems": [
    "c62_formed",
    "c62_helium_partial",
    "c62_last_helium_refuted",
    "c62_last_hydrogen_refuted",
    "c62_vacancy_partial",
    "c62_divacancy_refuted",
    "c62_trap",
    "c62_interstitials",
    "c62_heliums",
    "c62_helium_nine_refuted",
    "c62_extrapolated_refuted",
    "c62_boundary_refuted"
   ],
   "note": "Up to 812 vacancies below the grouping size, helium-per-vacancy ratio at most 4. Refuted: the last helium (or hydrogen) atom of 16 to 31 vacancies gets the energy of a vacancy; the empty pair is not bound; at 813 vacancies the fit fails; the last size before grouping has formation energy zero; nine helium atoms."
  },
  {
   "property": "C63",
   "status": "partial",
   "theorems": [
    "c63_alloy",
    "c63_alloy_grows",
    "c63_alloy_pair_refuted",
    "c63_alloy_formation_refuted",
    "c63_zr_vacancy",
    "c63_zr_vacancy_grows",
    "c63_zr_vacancy_925_refuted",
    "c63_zr_interstitial",
    "c63_zr_interstitial_grows",
    "c63_zr_basal",
    "c63_zr_basal_grows",
    "c63_zr_basal_nine_refuted",
    "c63_fe_mixed",
    "c63_fe_groups",
    "c63_fe_trap",
    "c63_fe_vacancy",
    "c63_fe_helium_refuted",
    "c63_fe_emits",
    "c63_fe_pair_refuted",
    "c63_ne",
    "c63_ne_small_refuted",
    "c63_range",
    "c63_other"
   ],
   "note": "Laws for all sizes and groups. Monotone: Alloy, Zr interstitials, Zr vacancies on either side of 925, Zr basal loops with transition size at least 200. Refuted: pairs in Alloy are at the floor, Alloy energies are not differences of the network's formation energies, the drop at 925 vacancies in Zr, the Zr loop of nine, helium leaving Fe clusters (always 5 eV, or the law of a vacancy for the last one), the helium pair in Fe, the vacancy pair and the smallest bubble in NE."
  },
  {
   "property": "C64",
   "status": "partial",
   "theorems": [
    "c64_psi_ungrouped",
    "c64_psi_interstitials",
    "c64_psi_mixed_interstitials",
    "c64_psi_vacancies",
    "c64_psi_width",
    "c64_psi_edge",
    "c64_psi_bubble",
    "c64_psi_minimum_refuted",
    "c64_psi_top_refuted",
    "c64_ne",
    "c64_fe",
    "c64_zr",
    "c64_alloy",
    "c64_one_species"
   ],
   "note": "Exact conditions for NE, Fe (mean vacancy number above one), Zr and Alloy on an axis, and PSI interstitials, pure vacancies and bubbles below the edge; an upper bound for every PSI cell. Refuted for PSI: pure vacancies beyond the mixed ones are grouped below the minimum; a group that would end with the largest size is cut. plsm is not modelled."
  },
  {
   "property": "C65",
   "status": "partial",
   "theorems": [
    "c65_psi_who",
    "c65_psi_rate",
    "c65_fe_who",
    "c65_fe_strength",
    "c65_fe_grows",
    "c65_fe_rate",
    "c65_fe_bias",
    "c65_alloy_who",
    "c65_alloy_rate",
    "c65_alloy_group_refuted",
    "c65_zr_who",
    "c65_zr_rate",
    "c65_zr_nine_refuted",
    "c65_ne_who",
    "c65_ne_equilibrium",
    "c65_ne_bias"
   ],
   "note": "Full for PSI, Fe (lattice parameter up to 10 nm), Zr, NE and single Alloy clusters; refuted for groups of perfect loops in the Alloy, which move but have no sink, and for Zr I9, whose sink law is never used."
  },
  {
   "property": "C66",
   "status": "partial",
   "theorems": [
    "c66_count",
    "c66_clusters",
    "c66_pair",
    "c66_absent",
    "c66_sink",
    "c66_balance",
    "c66_sink_level",
    "c66_off_refuted",
    "c66_coefficient_refuted",
    "c66_required_refuted",
    "c66_line_refuted",
    "c66_twice_refuted",
    "c66_mean_refuted"
   ],
   "note": "Full for well-formed files. Refuted: a reaction switched off or not listed uses the default rate instead; the coefficient of a reaction is ignored; a file or network without one of the four point defects, with an unknown cluster or a wrong number of columns is undefined behaviour; two lines for one cluster are mixed; the diffusivity is not a mean over the states."
  },
  {
   "property": "C67",
   "status": "partial",
   "theorems": [
    "c67_position",
    "c67_reactions",
    "c67_defined",
    "c67_flux",
    "c67_jacobian",
    "c67_connectivity",
    "c67_mapped",
    "c67_mapped_dissociation",
    "c67_table",
    "c67_table_dissociation",
    "c67_sub",
    "c67_reduced_plain",
    "c67_reduced_refuted"
   ],
   "note": "Full for the right-hand side, the Jacobian and the connectivity, for any layout of groups; dissociations whose first product has a moment on an axis where the reactant has none are excluded (the row of C17's finding). Reduced Jacobian: full without groups, refuted with a group."
  },
  {
   "property": "C68",
   "status": "partial",
   "theorems": [
    "c68_content",
    "c68_surface",
    "c68_bulk",
    "c68_rate",
    "c68_accumulated",
    "c68_bulk_accumulated",
    "c68_balance",
    "c68_balance_constant",
    "c68_gradient_refuted",
    "c68_growing_cells_refuted"
   ],
   "note": "Full for uniform grid and temperature, any partition and sequence of steps; content and accumulation for any grid. Refuted: with a temperature gradient (coefficients of the neighbouring point) and with growing cells. The step of the time integrator is taken as implicit Euler. Two and three dimensions, bursting and the restart of the counters not modelled."
  },
  {
   "property": "C69",
   "status": "partial",
   "theorems": [
    "c69_closed",
    "c69_reflecting_right",
    "c69_reflecting_right_content",
    "c69_first_point",
    "c69_periodic",
    "c69_reflecting_right_refuted",
    "c69_reflecting_left_refuted",
    "c69_periodic_refuted"
   ],
   "note": "Holds for a reflecting right side if the end point counts as half a cell. Refuted for the content as it is reported, for a reflecting left side and for periodic sides, where the first point is never updated."
  },
  {
   "property": "C70",
   "status": "partial",
   "theorems": [
    "c70_column",
    "c70_concentrations",
    "c70_event",
    "c70_charge",
    "c70_side",
    "c70_first_rise_refuted",
    "c70_rise_to_top_refuted",
    "c70_early_refuted",
    "c70_nothing_moves_refuted",
    "c70_reset_refuted",
    "c70_forever_refuted",
    "c70_lost_refuted",
    "c70_3d_refuted",
    "c70_3d_only",
    "c70_charge_3d_refuted",
    "c70_side_refuted"
   ],
   "note": "Full for a column which moves inside the grid, for events after which the run goes on, and for the counts in 2D with steps of at most one cell. Refuted: rising at the first point (undefined behaviour), rising to it (the cell is paid and not added), retreat below the threshold because of another column, events which move nothing, every restart puts all concentrations back to those of the start, 3D reads outside of the positions at each event and forgets the area in the sputtering, steps of several cells count one."
  },
  {
   "property": "C71",
   "status": "partial",
   "theorems": [
    "c71_first",
    "c71_three",
    "c71_later_refuted",
    "c71_burst_refuted"
   ],
   "note": "Full in 3D, and up to the first restart in 1D and 2D. Refuted: in 1D and 2D every later restart puts the counts back to those of the first; the burst counts start at zero at each restart."
  },
  {
   "property": "C72",
   "status": "partial",
   "theorems": [
    "c72_every_boundary",
    "c72_restart",
    "c72_schedule",
    "c72_extra_refuted",
    "c72_loop_refuted"
   ],
   "note": "Every multiple of the stride has its checkpoint, for any steps, and nothing else is written when no step is longer than a stride. Refuted otherwise: after a step over n strides the next n-1 steps are written; after a move of the surface the counter starts from 0 and as many steps are written as strides have passed. Casts out of the range of PetscInt are not modelled."
  },
  {
   "property": "C73",
   "status": "partial",
   "theorems": [
    "c73_totals",
    "c73_continue",
    "c73_any_number",
    "c73_xenon_amount",
    "c73_xenon_refuted"
   ],
   "note": "Full for the fluence (first entry) and the amounts through surface and bottom. Refuted for the xenon at the grain boundaries, which is not saved."
  },
  {
   "property": "C74",
   "status": "partial",
   "theorems": [
    "c74_round_trip",
    "c74_last_column",
    "c74_temperature_refuted",
    "c74_matrix",
    "c74_positions",
    "c74_first",
    "c74_moved_refuted",
    "c74_grid",
    "c74_no_step_refuted"
   ],
   "note": "Full for the concentrations and temperatures of the points, the positions, the amounts and the grid. Refuted: the temperatures by depth given to the network are those of the last owned column; after a move of the surface a continued run goes back to the file; a file without a checkpoint leaves no grid. HDF5 is taken at its documented meaning."
  },
  {
   "property": "C75",
   "status": "partial",
   "theorems": [
    "c75_flux",
    "c75_stencil",
    "c75_balance",
    "c75_accumulated",
    "c75_local",
    "c75_init",
    "c75_twice_refuted",
    "c75_init_refuted"
   ],
   "note": "Full for the rate and the accumulation on any grid and partition; the balance for uniform grid and temperature and free-surface sides. Refuted: a location given twice counts twice; the xenon at a boundary when it is taken out leaves the reported content without entering the reported amount. Two and three dimensions: C83."
  },
  {
   "property": "C76",
   "status": "partial",
   "theorems": [
    "c76_content",
    "c76_accumulated",
    "c76_bulk_accumulated",
    "c76_rate",
    "c76_step_refuted",
    "c76_sides_refuted",
    "c76_location_refuted"
   ],
   "note": "Content and accumulated amounts full for any decomposition (with advection: for a flat surface); the balance for uniform grid and temperature, a flat surface and no free sides in y and z. Refuted: what leaves through the side of a step of the surface and through free sides in y and z (the default) is in no count; the advective flux uses the location of another column."
  },
  {
   "property": "C77",
   "status": "partial",
   "theorems": [
    "c77_residual",
    "c77_jacobian_partial",
    "c77_sides",
    "c77_jacobian_refuted",
    "c77_deadlock_refuted",
    "c77_entry",
    "c77_derivative_refuted"
   ],
   "note": "Full for the residual. The Jacobian when the grid is shared out along x only (one dimension included). Refuted: with several processes in y or z the Jacobian adds up the helium of different columns, with different numbers of columns per process the collective calls do not match; no matrix entry for the dependence of the rate on the trapped helium."
  },
  {
   "property": "C78",
   "status": "partial",
   "theorems": [
    "c78_alloy",
    "c78_alloy_balance",
    "c78_alloy_lost_refuted",
    "c78_alloy_loops",
    "c78_alloy_ends",
    "c78_alloy_view",
    "c78_alloy_source",
    "c78_alloy_view_refuted",
    "c78_damage",
    "c78_alloy_output",
    "c78_alloy_output_0d",
    "c78_alloy_output_refuted",
    "c78_attenuation",
    "c78_no_attenuation",
    "c78_fe",
    "c78_fe_balance_refuted",
    "c78_fe_dimension_refuted",
    "c78_zr",
    "c78_zr_balance",
    "c78_zr_lost_refuted",
    "c78_zr_repeat_refuted"
   ],
   "note": "Alloy and zirconium full for networks which have all the sizes of the tables. Refuted: sizes missing on one side only; a surface below the third point and alloyFlux.dat go outside of the vectors; iron gives 0.27 % more vacancies than interstitials, whatever the amplitude and the dimension; basal clusters between 19 and 65 lose a part of the vacancies; each initialization adds the zirconium source once more."
  },
  {
   "property": "C79",
   "status": "partial",
   "theorems": [
    "c79_fuel",
    "c79_fuel_sites",
    "c79_fuel_range",
    "c79_fuel_short",
    "c79_fuel_negative_refuted",
    "c79_fuel_jacobian_refuted",
    "c79_fuel_file_refuted",
    "c79_pulse",
    "c79_pulse_amount",
    "c79_pulse_shape",
    "c79_pulse_none_refuted",
    "c79_pulse_late_refuted",
    "c79_pulse_read_refuted",
    "c79_profile",
    "c79_options",
    "c79_profile_refuted"
   ],
   "note": "Fuel full for files with one line for V and one for V2; pulses full for given cycle, proportion, amplitude and grid. Refuted: the fuel source is negative when more sites are occupied than there are, and has no Jacobian; a file with V3 writes outside of a vector; no pulse option, the cycle 2^31, no grid or no amplitude are undefined behaviour; with a time profile the sources of fuel, pulses and alloys are zero."
  },
  {
   "property": "C80",
   "status": "partial",
   "theorems": [
    "c80_zero",
    "c80_zero_constant",
    "c80_zero_history_refuted",
    "c80_zero_restart",
    "c80_zero_vector",
    "c80_zero_start",
    "c80_line",
    "c80_line_repeat",
    "c80_gradient",
    "c80_columns",
    "c80_columns_still",
    "c80_columns_refuted",
    "c80_columns_repeat_refuted",
    "c80_depth_refuted",
    "c80_depth_last",
    "c80_surface_refuted",
    "c80_outside_refuted",
    "c80_tables"
   ],
   "note": "Zero and one dimension full (tolerance 0.1 K, any decomposition, own temperature grid included). Refuted: the rates are not a function of time and solution but of the evaluations before; in two and three dimensions all columns of a process have the temperatures of its last column, and a second evaluation can change them; the depths given with the temperatures are those of the next point, so that the trap-mutation table is chosen with the temperature in front of the surface, or outside of the vector on a process in front of it."
  },
  {
   "property": "C81",
   "status": "partial",
   "theorems": [
    "c81_plane",
    "c81_space",
    "c81_handlers_partial",
    "c81_once",
    "c81_plane_values",
    "c81_space_values",
    "c81_pair",
    "c81_network",
    "c81_zero",
    "c81_across_refuted",
    "c81_unequal_refuted"
   ],
   "note": "Full with the advection towards the surface (any surface, decomposition, boundary options, excluded grain boundaries) and for the network in 0D; with grain boundaries across x which trap as many clusters as the surface. Refuted: a grain boundary across y or z (coordinates announced for y = z = 0), and handlers with different numbers of clusters. Positions written once only if the left side is not reflecting or periodic (F38). The periodic translation of indices outside of the mesh is PETSc's."
  },
  {
   "property": "C82",
   "status": "partial",
   "theorems": [
    "c82_zr",
    "c82_alloy",
    "c82_sizes",
    "c82_single",
    "c82_diameter",
    "c82_thin_refuted",
    "c82_zero",
    "c82_full",
    "c82_coupled",
    "c82_coupled_refuted",
    "c82_tridyn",
    "c82_tridyn_temperature_refuted",
    "c82_tridyn_processes_refuted",
    "c82_tridyn_species_refuted",
    "c82_profile",
    "c82_negative",
    "c82_negative_refuted",
    "c82_series",
    "c82_series_refuted",
    "c82_scatter",
    "c82_scatter_points"
   ],
   "note": "Data lines, depths and atoms of the TRIDYN file, temperature profile and thresholds full, for every share of the points; series plot for one process. Refuted: below a density of 1e-16 the diameter column has the undivided sum; coupled runs add points without their widths; the TRIDYN temperature is that of the point before (on the first process two points before), so it depends on the number of processes; with six species there is no TRIDYN file; the check for negative concentrations leaves them; the series plot of several processes stops with an MPI error. The totals themselves are C21."
  },
  {
   "property": "C83",
   "status": "partial",
   "theorems": [
    "c83_flux",
    "c83_stencil",
    "c83_accumulated",
    "c83_local",
    "c83_content",
    "c83_radius",
    "c83_balance",
    "c83_init",
    "c83_init_refuted",
    "c83_twice_refuted",
    "c83_first_refuted"
   ],
   "note": "Full for the rate, the accumulation, the content and the radii on any grid and share of the box; the balance for a uniform grid and temperature, surfaces at the first point and periodic sides. Refuted: a boundary in the first row or plane is read outside the array (32-bit indices, the default), a location given twice counts twice, the xenon at a boundary when it is taken out leaves the reported content without entering the reported amount."
  },
  {
   "property": "C84",
   "status": "partial",
   "theorems": [
    "c84_drift",
    "c84_thermal",
    "c84_thermal_again",
    "c84_run",
    "c84_still",
    "c84_missing",
    "c84_dimension",
    "c84_soret_refuted",
    "c84_grain_refuted",
    "c84_threshold_refuted",
    "c84_factors_refuted"
   ],
   "note": "Lists, strengths and errors full for every network of tungsten, material, dimension, choice of processes and grain boundaries. Refuted: soret with a material other than W100 or in two and three dimensions is silently without effect; a grain boundary in a material which is not tungsten follows a null pointer; the migration threshold does not stop drift and thermal diffusion; the factors of the thermal diffusion are not cleared, so that a second initialisation with another network gives clusters the factors of others. Not modelled: where the handlers act on the grid (C26-C28, C33)."
  },
  {
   "property": "C85",
   "status": "partial",
   "theorems": [
    "c85_limits",
    "c85_zr_options",
    "c85_zr_sixth_refuted",
    "c85_alloy_options",
    "c85_none_refuted",
    "c85_transfer",
    "c85_zr",
    "c85_zr_some",
    "c85_zr_basal_refuted",
    "c85_alloy",
    "c85_alloy_group_refuted",
    "c85_alloy_line_refuted",
    "c85_line",
    "c85_zero",
    "c85_moments_refuted"
   ],
   "note": "Full: options; sources of zirconium without basal pyramids, of alloys in 0D without groups; rates per grid point in 0D and 1D for networks without groups. Refuted: basal pyramids (vacancies counted too often), alloys with groups (exception) or depth (sources exchanged between clusters), moments of groups not handed over, parameters without sub-network."
  },
  {
   "property": "C86",
   "status": "partial",
   "theorems": [
    "c86_json",
    "c86_json_lists",
    "c86_json_flags",
    "c86_conf",
    "c86_conf_lists",
    "c86_conf_flags",
    "c86_conf_accepts",
    "c86_conf_throws",
    "c86_agree",
    "c86_accepted",
    "c86_checks",
    "c86_int",
    "c86_case",
    "c86_bool",
    "c86_items",
    "c86_convert_refuted",
    "c86_list_refuted",
    "c86_unknown_refuted",
    "c86_twice_refuted",
    "c86_pulse_refuted",
    "c86_bool_refuted"
   ],
   "note": "Full for the values and defaults of 38 single options, 10 lists and 3 flags in both formats, for the errors of the older format and for the agreement of the formats (files whose two yes/no texts are read alike, without petscArgs). Refuted for the errors of JSON: unknown labels, repeated labels, values of the wrong type and lists for single values are passed over silently; a list for pulse or rng is undefined; yes/no words differ between the formats. Abstract: the conversion to double, files which open, strtoul."
  },
  {
   "property": "C87",
   "status": "partial",
   "theorems": [
    "c87_largest",
    "c87_fires",
    "c87_loops",
    "c87_threshold",
    "c87_interstitial_refuted",
    "c87_perfect_refuted",
    "c87_tie_refuted"
   ],
   "note": "Full: some cluster whose counted atoms are the most of all is found, for every way in which threads share out the clusters; some process ends the run exactly if that cluster exceeds the threshold at some point of the grid, in every dimension. Refuted: interstitials do not count in tungsten, fuel and iron, nor perfect loops (nor single defects) in alloys; of equally large clusters only one is watched. Not modelled: how the exception of one process ends the others."
  },
  {
   "property": "C88",
   "status": "partial",
   "theorems": [
    "c88_columns",
    "c88_row",
    "c88_width",
    "c88_bubble",
    "c88_marker_refuted",
    "c88_ratio_refuted",
    "c88_interface_refuted"
   ],
   "note": "Full for the columns, the headings, the concentrations, the statistics of the bubbles and the table of bubbles; the content of xenon is that of C21 (moments on the axis of xenon 0). Refuted: the line Reactions in the first place is undefined; a network without bubbles (xenon alone) writes 0/0 twice in each row; the variance asked for through the interface ignores the mean. Abstract: the text form of numbers."
  },
  {
   "property": "C89",
   "status": "partial",
   "theorems": [
    "c89_restart1",
    "c89_restart2",
    "c89_restart3",
    "c89_names",
    "c89_start",
    "c89_moving_refuted",
    "c89_off_refuted",
    "c89_half_refuted"
   ],
   "note": "Full for runs with the option for retention and for the left side of runs with a moving surface. Refuted: without the option for retention a restart forgets the amounts (and its checkpoints hold zeros), with a moving surface those of the right side and of bursting; a moving surface at a side which is not free is undefined. The next solver loop is C71, positions, concentrations and fluence are C72-C74."
  },
  {
   "property": "C90",
   "status": "partial",
   "theorems": [
    "c90_more",
    "c90_monotone",
    "c90_deeper",
    "c90_none",
    "c90_depth",
    "c90_chance",
    "c90_scan",
    "c90_scan3",
    "c90_points",
    "c90_flag",
    "c90_owner",
    "c90_post",
    "c90_balance",
    "c90_sum",
    "c90_surface_refuted",
    "c90_width_refuted",
    "c90_unbooked_refuted"
   ],
   "note": "Full for the points which burst, the draws, the owners and the removal of the gas; the books balance in one dimension on grids of equal steps. Refuted: on other grids the width booked is that of the neighbouring cells' mean; in two and three dimensions nothing is booked; where the left side is not a free surface its first point bursts in every step without helium. Networks as in C20 (groups of mixed clusters, moments 0). Arbitrary: the random numbers."
  },
  {
   "property": "C91",
   "status": "partial",
   "theorems": [
    "c91_capture",
    "c91_capture_large",
    "c91_grows",
    "c91_continuous",
    "c91_positive",
    "c91_symmetric",
    "c91_loop",
    "c91_compounds",
    "c91_share",
    "c91_spheres",
    "c91_rings",
    "c91_grows_refuted",
    "c91_share_refuted"
   ],
   "note": "Full for the laws, the growth below the transition, the positive and symmetric rates in zirconium (every size, group and temperature) and the shares in the alloys when both kinds can hold the size. Refuted: at the transition size the radius of a basal loop for interstitials falls from 1.1 to less than 0.79; when only one of two kinds exists, half of the rate is lost."
  },
  {
   "property": "C92",
   "status": "partial",
   "theorems": [
    "c92_surface",
    "c92_ends",
    "c92_xy",
    "c92_xz",
    "c92_integral_refuted"
   ],
   "note": "Full in two dimensions, for all interleavings, with buffered and with synchronous sends; in three dimensions every position with the sum of the concentrations along the remaining direction. Refuted: this sum is not multiplied by the step, so it is neither an integral nor a concentration. MPI is taken at its documented meaning (messages of one sender and tag in order); the drawing itself is not modelled."
  },
  {
   "property": "C93",
   "status": "partial",
   "theorems": [
    "c93_law",
    "c93_stopping",
    "c93_radius",
    "c93_fission",
    "c93_groups",
    "c93_who",
    "c93_once",
    "c93_one",
    "c93_kept_refuted"
   ],
   "note": "Full for the rate and for the list of the reactions (any grouping; in networks of single sizes exactly one per bubble whose rest is a cluster). Refuted: bubbles with one vacancy, and those of two xenon atoms with ten or more vacancies, never give gas back. The flux of a reaction is that of C05; the order of the reactions of a cluster is not modelled."
  },
  {
   "property": "C94",
   "status": "partial",
   "theorems": [
    "c94_reads",
    "c94_ends",
    "c94_source",
    "c94_total",
    "c94_last_line_refuted",
    "c94_blank_refuted",
    "c94_missing_refuted",
    "c94_zero_dimension_refuted",
    "c94_blank_first_refuted"
   ],
   "note": "Full for files whose every line ends with an end of line and whose profiles have a positive sum: any number of profiles, networks, grids and amplitudes. Refuted: a file without a final end of line is refused with an exception; what follows a blank line is ignored in silence; without a file, without a grid or with a blank first line the program reads an element of an empty vector, although a zero flux is announced. The conversion of tokens to numbers is a parameter (C89)."
  },
  {
   "property": "C95",
   "status": "partial",
   "theorems": [
    "c95_fresh",
    "c95_restart",
    "c95_same",
    "c95_later",
    "c95_safe",
    "c95_network_refuted",
    "c95_no_network_refuted",
    "c95_missing_refuted",
    "c95_same_missing_refuted",
    "c95_alias_refuted"
   ],
   "note": "Full for the safety of saved files and for fresh runs. Refuted: the network in the checkpoint of a restart is that of the old file even if the run has another one, and none if the file has none; a name without a file ends the run with an exception, or, if it is also that of the checkpoint, gives a checkpoint without network; the same file under two names is refused. HDF5 is taken at its documented meaning (an open file is not truncated)."
  },
  {
   "property": "C96",
   "status": "partial",
   "theorems": [
    "c96_law",
    "c96_smaller",
    "c96_dimensions",
    "c96_groups",
    "c96_handed_refuted"
   ],
   "note": "Full for getTotalVolumeFraction with the radii of the clusters, for all networks, concentrations and minimum sizes which do not cut a group (or whose moments are zero); the fraction is the same in all dimensions. Refuted: what the coupled code gets lacks 4/3 of Pi and is less than a quarter of the fraction. For groups the sphere of the mean radius gives less than the volume of the sizes; the difference is strict as soon as two radii differ."
  },
  {
   "property": "C97",
   "status": "partial",
   "theorems": [
    "c97_names",
    "c97_json",
    "c97_conf",
    "c97_early",
    "c97_errors",
    "c97_level_refuted",
    "c97_file_refuted"
   ],
   "note": "Full for the names, for errors, for builds with assertions and for the old format's output. Refuted: without assertions (release builds) the set-up of the log at the first message replaces the filter, so that with JSON parameters logLevel has no effect on the output; in the old format only the first process writes a file even when debug or extra is asked for. Boost.Log is taken at its documented meaning; the case before MPI is ready is covered with assertions and JSON parameters only."
  },
  {
   "property": "C98",
   "status": "proved",
   "theorems": [
    "c98_written",
    "c98_read",
    "c98_which",
    "c98_labels"
   ],
   "note": "For any list of clusters with nonempty regions and amounts up to 2^31. HDF5 is taken at its documented meaning (a group with a taken name cannot be created; signed and unsigned numbers of 32 bits share their bits). That the regions of a network do not overlap is a hypothesis here."
  },
  {
   "property": "C99",
   "status": "partial",
   "theorems": [
    "c99_depth",
    "c99_uniform",
    "c99_across_refuted",
    "c99_width_refuted",
    "c99_step_refuted"
   ],
   "note": "Full for the depth: number, positions and restart, and the step of a uniform grid. Refuted: in two and three dimensions the monitors leave numbers and steps of the other directions at their defaults of zero, so that runs of different widths leave the same description and a restart with another width is not noticed there; the step given is the first one even if the grid is not uniform."
  }
 ]
}