{
 "claims": [
  {
   "property": "C01",
   "status": "proved",
   "theorems": [
    "C01_lru_no_undefined_behaviour",
    "C01_lru_bounded_unique"
   ],
   "note": "all capacities and operation sequences; list iterators modelled as node identities"
  },
  {
   "property": "C02",
   "status": "proved",
   "theorems": [
    "C02_lru_recency"
   ],
   "note": "specification on call histories in Lru_Spec.v"
  },
  {
   "property": "C03",
   "status": "partial",
   "theorems": [
    "C03_lru_evicts_least_recent",
    "C03_lru_accounting",
    "C03_lru_callback_refuted"
   ],
   "note": "As listed the property is false: overwrite and clear() drop values without callback (refuted). Proved: evictions go to the callback exactly once, least recently used first, and full accounting for callers that put only absent keys."
  },
  {
   "property": "C04",
   "status": "proved",
   "theorems": [
    "C04_index_bijection",
    "C04_index_stable"
   ],
   "note": "fewer than 2^32 conversions (the counter is 32 bit)"
  },
  {
   "property": "C05",
   "status": "proved",
   "theorems": [
    "C05_xcorrcache_last_write_wins",
    "C05_xcorrcache_antisymmetric",
    "C05_xcorrcache_no_self_pair",
    "C05_xcorrcache_merge"
   ],
   "note": "pairs of different events; a self pair is never retained"
  },
  {
   "property": "C06",
   "status": "proved",
   "theorems": [
    "C06_coefficient",
    "C06_rolling",
    "C06_bounded"
   ],
   "note": "over the reals: rounding of the rolling sums is not modelled"
  },
  {
   "property": "C07",
   "status": "partial",
   "theorems": [
    "C07_first_maximum",
    "C07_empty_refuted"
   ],
   "note": "proved for non-empty traces; with an empty short trace the sample before the window is read"
  },
  {
   "property": "C08",
   "status": "proved",
   "theorems": [
    "C08_in_bounds",
    "C08_swap",
    "C08_negative_refuted"
   ],
   "note": "also for equal lengths; C08_negative_refuted shows that the restriction to non-negative delays is needed; non-empty traces"
  },
  {
   "property": "C09",
   "status": "partial",
   "theorems": [
    "C09_text_roundtrip",
    "C09_text_roundtrip_before_1970",
    "C09_text_roundtrip_refuted",
    "C09_long_fraction_refuted"
   ],
   "note": "round trip proved from 1970 to 9999 and for whole seconds before; refuted for fractional times before 1970, for the second -1, and for parsing of long fractions"
  },
  {
   "property": "C10",
   "status": "partial",
   "theorems": [
    "C10_calendar_is_gregorian",
    "C10_date_roundtrip",
    "C10_date_roundtrip_refuted",
    "C10_field_ranges",
    "C10_field_order_is_time_order",
    "C10_text_order_refuted"
   ],
   "note": "all proved except that the order of the printed text is refuted (trailing zeros dropped) and the times in (-2 s, -1 s] throw"
  },
  {
   "property": "C100",
   "status": "proved",
   "theorems": [
    "C100_median",
    "C100_weights",
    "C100_cutoff",
    "C100_no_spread_refuted"
   ],
   "note": "Binary64 (Flocq). C100_no_spread_refuted is the limit named at the end of the statement."
  },
  {
   "property": "C101",
   "status": "proved",
   "theorems": [
    "C101_azimuth",
    "C101_longitude",
    "C101_longitude_range",
    "C101_longitude_exact",
    "C101_bad",
    "C101_identity_refuted"
   ],
   "note": "Binary64 (Flocq), std::fmod modelled. C101_identity_refuted is the limit named at the end of the statement."
  },
  {
   "property": "C11",
   "status": "proved",
   "theorems": [
    "C11_window_start_le_end",
    "C11_merge_least_upper_bound",
    "C11_overlap_is_intersection",
    "C11_contains_is_inclusion",
    "C11_window_laws",
    "C11_extend_trim"
   ],
   "note": "integer time points, 64 bit overflow not modelled"
  },
  {
   "property": "C12",
   "status": "proved",
   "theorems": [
    "C12_csv_roundtrip",
    "C12_csv_roundtrip_no_final_eol",
    "C12_char_after_quote_dropped_refuted",
    "C12_embedded_newline_refuted"
   ],
   "note": "Round trip for every table of plain/quoted fields, LF or CRLF. Quoted fields may not contain a newline, and the character after a closing quote is dropped (both witnessed)."
  },
  {
   "property": "C13",
   "status": "partial",
   "theorems": [
    "C13_csv_header_mapping",
    "C13_csv_header_defined",
    "C13_empty_file_refuted"
   ],
   "note": "Mapping proved for every non-empty file; for an empty file the code reads rows[0] of an empty vector (witness)."
  },
  {
   "property": "C14",
   "status": "partial",
   "theorems": [
    "C14_catalog_integrity",
    "C14_fill_processing_info",
    "C14_station_id_unique",
    "C14_station_codes_refuted",
    "C14_station_id_collision_refuted"
   ],
   "note": "Integrity holds for every catalog built by the modelled operations when updated stations keep codes matching their id; updateStation with other codes and codes containing dots break it (witnesses). add(*this) is not modelled."
  },
  {
   "property": "C15",
   "status": "partial",
   "theorems": [
    "C15_new_id_unused",
    "C15_keep_id",
    "C15_wraparound_refuted"
   ],
   "note": "New ids are unused unless id 2^32-1 is in use (then the counter wraps; witness)."
  },
  {
   "property": "C16",
   "status": "proved",
   "theorems": [
    "C16_add_keeps_id",
    "C16_add_new_id",
    "C16_extract",
    "C16_merge_keeping_ids",
    "C16_merge_new_ids"
   ],
   "note": "Adding, extracting and merging copy events with all their phases and leave everything else unchanged."
  },
  {
   "property": "C17",
   "status": "proved",
   "theorems": [
    "C17_remove_event",
    "C17_remove_phase"
   ],
   "note": "Removal affects exactly the requested event or the first matching phase."
  },
  {
   "property": "C18",
   "status": "partial",
   "theorems": [
    "C18_catalog_roundtrip",
    "C18_phase_reloc_lost_refuted",
    "C18_separator_refuted"
   ],
   "note": "Round trip for every catalog whose codes contain no separator and whose times lie in 1970-9999; printing and parsing of numbers are hypotheses here (the text read back is the rounded value) and are proved for binary64 in C94 (C94_catalog). Relocation information of phases is lost when no event is relocated, and separators are not protected (witnesses)."
  },
  {
   "property": "C19",
   "status": "partial",
   "theorems": [
    "C19_weight_values",
    "C19_out_of_range_lowest",
    "C19_class_contains",
    "C19_weight_antitone",
    "C19_antitone_below_first_refuted"
   ],
   "note": "Weights are powers 1/2^class; monotone for uncertainties above the first bound; below the first bound monotonicity fails (witness)."
  },
  {
   "property": "C20",
   "status": "partial",
   "theorems": [
    "C20_median",
    "C20_median_abs_dev",
    "C20_five_number_partial",
    "C20_small_refuted",
    "C20_order_independent"
   ],
   "note": "the median and the MAD are proved for every nth_element the standard allows; the five-number summary is proved from four values on, and refuted below: with 1 to 3 values nth_element is called with nth before first (undefined behaviour)"
  },
  {
   "property": "C21",
   "status": "proved",
   "theorems": [
    "C21_normalize_lon",
    "C21_normalize_azimuth",
    "C21_lon_canonical",
    "C21_azimuth_canonical",
    "C21_lon_idempotent",
    "C21_azimuth_idempotent",
    "C21_lon_in_range",
    "C21_azimuth_in_range"
   ],
   "note": "over the reals"
  },
  {
   "property": "C22",
   "status": "proved",
   "theorems": [
    "C22_nodes",
    "C22_between",
    "C22_multi_affine",
    "C22_angles_between",
    "C22_angles_nodes"
   ],
   "note": "over the reals"
  },
  {
   "property": "C23",
   "status": "partial",
   "theorems": [
    "C23_great_circle",
    "C23_arc_length",
    "C23_range",
    "C23_symmetric",
    "C23_zero",
    "C23_zero_only",
    "C23_3d_partial",
    "C23_vertical_refuted"
   ],
   "note": "the surface distance is proved to be the great-circle distance; the 3D distance is proved except that a vertical separation below 1e-7 km is ignored (refuted there)"
  },
  {
   "property": "C24",
   "status": "proved",
   "theorems": [
    "C24_layers_partition",
    "C24_outermost",
    "C24_quadrants_cover",
    "C24_quadrants_exact",
    "C24_first_quadrants_below",
    "C24_layer_range_refuted"
   ],
   "note": "layers and quadrants partition as stated; in addition C24_layer_range_refuted: the distance range clustering.cpp searches for a layer misses points of the layer"
  },
  {
   "property": "C25",
   "status": "proved",
   "theorems": [
    "C25_build",
    "C25_search"
   ],
   "note": "nth_element and the order of equal keys arbitrary."
  },
  {
   "property": "C26",
   "status": "partial",
   "theorems": [
    "C26_radius_sound",
    "C26_radius_complete",
    "C26_nn_search",
    "C26_knn_search",
    "C26_best_first",
    "C26_knn_zero_refuted"
   ],
   "note": "All queries sound; complete, nearest and ordered exactly under the validity of the pruning bound. knnSearch with k = 0 is undefined behaviour."
  },
  {
   "property": "C27",
   "status": "partial",
   "theorems": [
    "C27_radius_refuted",
    "C27_nn_refuted",
    "C27_radius_partial"
   ],
   "note": "false of the code: the axis distance used for pruning is not a lower bound of the distance on the sphere; with a shrunk radius the search is proved complete"
  },
  {
   "property": "C28",
   "status": "proved",
   "theorems": [
    "C28_select_limits",
    "C28_min_phases_duplicate_picks_refuted"
   ],
   "note": "all limits in both modes; the minimum number of phases needs a catalog without duplicate picks (refuted otherwise); distances are rationals"
  },
  {
   "property": "C29",
   "status": "partial",
   "theorems": [
    "C29_station_range_refuted",
    "C29_station_filter_vacuous_partial"
   ],
   "note": "false of the code: the two range tests are joined with || instead of &&; the partial theorem shows that the filter then rejects nothing"
  },
  {
   "property": "C30",
   "status": "partial",
   "theorems": [
    "C30_select_terminates",
    "C30_nearest_first",
    "C30_ellipsoids_exhaustive",
    "C30_tree_order_refuted",
    "C24_layer_range_refuted"
   ],
   "note": "selection is proved for every tree delivering points by increasing distance; the KD-tree on the Earth does not always do so (C30_tree_order_refuted)"
  },
  {
   "property": "C31",
   "status": "proved",
   "theorems": [
    "C31_select_catalog_terminates",
    "C31_select_catalog_closed",
    "C31_single_selection_valid"
   ],
   "note": "valid_sel is discharged for the model of selectNeighbouringEvents; any hash-map order"
  },
  {
   "property": "C32",
   "status": "proved",
   "theorems": [
    "C32_clusterize_terminates",
    "C32_clusters_are_components"
   ],
   "note": "any pick/iteration order of the unordered containers"
  },
  {
   "property": "C33",
   "status": "proved",
   "theorems": [
    "C33_each_pair_once"
   ],
   "note": "each neighbouring pair is kept in exactly one direction"
  },
  {
   "property": "C34",
   "status": "partial",
   "theorems": [
    "C34_set_of_triples",
    "C34_write_defined",
    "C34_pair_file_roundtrip",
    "C34_to_catalog",
    "C34_empty_entry_refuted",
    "C34_unknown_station_refuted"
   ],
   "note": "Neighbours behave as a set of triples, the pair file round trips for catalogs with integrity and codes without separators; empty entries are lost and unknown stations are undefined behaviour (witnesses)."
  },
  {
   "property": "C35",
   "status": "proved",
   "theorems": [
    "C35_aprod1",
    "C35_aprod2",
    "C35_adjoint",
    "C35_size",
    "C35_rhs"
   ],
   "note": "The two products are those of the matrix defined entry by entry from the rows, and are adjoint; over the real numbers."
  },
  {
   "property": "C36",
   "status": "partial",
   "theorems": [
    "C36_weights_partial",
    "C36_no_spread_refuted"
   ],
   "note": "Real arithmetic; requires a non-zero spread of the residuals. Refuted case: all residuals equal gives weight zero, or no number when they are all zero."
  },
  {
   "property": "C37",
   "status": "proved",
   "theorems": [
    "C37_missing",
    "C37_rows",
    "C37_constraints",
    "C37_entry",
    "C37_any_names"
   ],
   "note": "For every sequence of calls, any order of the hash containers and any type of numbers; indexes below 2^32. C37_any_names drops the condition that phase names contain no '@', at the price of names normalised as the solver splits them."
  },
  {
   "property": "C38",
   "status": "partial",
   "theorems": [
    "C38_reported",
    "C38_at_refuted"
   ],
   "note": "Proved when no phase name contains '@' (C38_reported). With '@' in a phase name two different observations are merged (C38_at_refuted)."
  },
  {
   "property": "C39",
   "status": "proved",
   "theorems": [
    "C39_unit_norm",
    "C39_defined",
    "C39_least_squares",
    "C39_zero_column_refuted"
   ],
   "note": "For systems without zero columns, as the property says; real arithmetic and no damping for the solutions. A zero column gives NaN (refuted case)."
  },
  {
   "property": "C40",
   "status": "proved",
   "theorems": [
    "C40_changes",
    "C40_observed",
    "C40_solve",
    "C40_used",
    "C40_any_names"
   ],
   "note": "For every sequence of calls and every vector returned by the least squares solver; the changes reported are exactly those of the events with an observation of non-zero weight and a finite solution."
  },
  {
   "property": "C41",
   "status": "partial",
   "theorems": [
    "C41_start_end",
    "C41_range",
    "C41_monotone",
    "C41_one_iteration",
    "C41_one_iteration_refuted",
    "C41_last_pass_refuted"
   ],
   "note": "Proved for two or more iterations and the systems that are solved, on real numbers; false for a single iteration (the mean of start and end is used) and for the last pass, which is prepared with extrapolated values (both refuted)."
  },
  {
   "property": "C42",
   "status": "partial",
   "theorems": [
    "C42_total",
    "C42_output",
    "C42_outside",
    "C42_cluster",
    "C42_single",
    "C42_multi",
    "C42_stale_mark_refuted",
    "C42_multi_stale_mark_refuted"
   ],
   "note": "Proved for inputs without marks of an earlier relocation, and for cluster events whose travel times never fail; marks already set in the input are passed on, which makes the full claim false (refuted with witnesses)."
  },
  {
   "property": "C43",
   "status": "partial",
   "theorems": [
    "C43_observations",
    "C43_weight",
    "C43_weight_monotone",
    "C43_symmetric",
    "C43_missing_pick_refuted"
   ],
   "note": "Proved on real numbers for every catalog, cache, option set and solver history when the picks named by the neighbours exist with filled processing information and phase names contain no '@'; a cluster file naming a missing pick leads to undefined behaviour (refuted)."
  },
  {
   "property": "C44",
   "status": "partial",
   "theorems": [
    "C44_transparent_partial",
    "C44_asked_once",
    "C44_parameters_refuted",
    "C44_clash_refuted",
    "C44_failure_refuted"
   ],
   "note": "Transparent if requests for the same trace use the same parameters, no channel is called like a transformed one and the processor behind is a function of the request; refuted without each of these: the id leaves out the filter, the sampling frequency, the event and the station; channel L and the L2 transformation share an id; a failure is never retried."
  },
  {
   "property": "C45",
   "status": "partial",
   "theorems": [
    "C45_transparent_partial",
    "C45_uninterrupted",
    "C45_interrupted_refuted"
   ],
   "note": "Transparent when writes are complete and can be read back, or when no beginning of a file can be read as a trace; refuted for a file of records (miniSEED) interrupted between two records. The encoding itself is a parameter."
  },
  {
   "property": "C46",
   "status": "partial",
   "theorems": [
    "C46_requests_once",
    "C46_loaded_once",
    "C46_answer_partial",
    "C46_answer_refuted"
   ],
   "note": "Every distinct request is issued once and the answers are cut from traces delivered for the stream; refuted: a request can fail although its trace was delivered, because another one that contains the window is found first and cannot be cut."
  },
  {
   "property": "C47",
   "status": "partial",
   "theorems": [
    "C47_window_to_load_partial",
    "C47_before_1970_refuted"
   ],
   "note": "proved for times after 1970; before, the fraction of a second is negative and the window is not rounded"
  },
  {
   "property": "C48",
   "status": "proved",
   "theorems": [
    "C48_defined",
    "C48_slice",
    "C48_succeeds",
    "C48_contained_refuted"
   ],
   "note": "for traces with at least one sample and a positive frequency; C48_contained_refuted: a window contained in the window of the trace can nevertheless fail"
  },
  {
   "property": "C49",
   "status": "partial",
   "theorems": [
    "C49_projection",
    "C49_energy_3d",
    "C49_energy",
    "C49_l2",
    "C49_rt_partial",
    "C49_rt_start_refuted",
    "C49_no_overlap_refuted"
   ],
   "note": "Real arithmetic. Projection, energy conservation and the L2 window proved; the start time of a radial/transversal trace is that of the first horizontal component, wrong if another one starts later (refuted), and traces that do not overlap reach a conversion of a negative double to size_t (refuted)."
  },
  {
   "property": "C50",
   "status": "partial",
   "theorems": [
    "C50_place",
    "C50_disjoint",
    "C50_read",
    "C50_close",
    "C50_open",
    "C50_overflow_refuted",
    "C50_short_load_refuted"
   ],
   "note": "byte-level model of open/close/read with all three modes, arbitrary results of the system calls, every history; holds when the size of the grid fits 64 bits and no load in memory was cut short. Refuted otherwise: with sizes that overflow two nodes share bytes and a read before the mapping is possible; after a short load the grid counts as open and gives zeros"
  },
  {
   "property": "C51",
   "status": "proved",
   "theorems": [
    "C51_cell",
    "C51_value3D",
    "C51_between3D",
    "C51_node3D",
    "C51_outside3D",
    "C51_sound3D",
    "C51_value2D",
    "C51_between2D",
    "C51_outside2D",
    "C51_sound2D",
    "C51_time_file",
    "C51_no_ub",
    "C51_units",
    "C51_vel2D",
    "C51_flat",
    "C51_nan_refuted"
   ],
   "note": "real arithmetic; axes with at least two nodes and positive steps (one node: C51_flat); the result does not depend on the choice of the cell. A depth that is NaN leads to undefined behaviour, a NaN in the file is returned (C51_nan_refuted)"
  },
  {
   "property": "C52",
   "status": "proved",
   "theorems": [
    "C52_rotation",
    "C52_azimuth",
    "C52_angles",
    "C52_sdc_factors",
    "C52_there_and_back",
    "C52_back_and_there",
    "C52_orientation",
    "C52_header",
    "C52_header_checked",
    "C52_pole_refuted",
    "C52_sdc_pole_refuted"
   ],
   "note": "GLOBAL, SIMPLE and SDC in real arithmetic, off the poles; for SDC with an origin between 89 and 90 degrees north the latitude factor is negative (C52_sdc_pole_refuted)"
  },
  {
   "property": "C53",
   "status": "partial",
   "theorems": [
    "C53_time_sound",
    "C53_time",
    "C53_full_sound",
    "C53_full",
    "C53_agree",
    "C53_open_bound",
    "C53_nearest",
    "C53_close_refuted",
    "C53_zero_refuted",
    "C53_transient_refuted",
    "C53_alike_refuted"
   ],
   "note": "Proved for every history, cache size and shared grids: the result is that of the grid of the station found in the tree, and with unchanging files it is given exactly if that grid opens and has a value; no closed grid is read; at most maxOpenFiles grids are open when maxOpenFiles > 0 and closeOpenFiles was never called. Refuted: closeOpenFiles leaves grids open (the count is then unbounded), maxOpenFiles = 0 never closes anything, a file that fails to open once is refused for ever after its key left the cache, stations equal to six decimals share a grid. That the tree gives the nearest grid is C26/C27."
  },
  {
   "property": "C54",
   "status": "partial",
   "theorems": [
    "C54_phases",
    "C54_agree_partial",
    "C54_slowness",
    "C54_agree_refuted"
   ],
   "note": "the two entry points differ when the vertical distance is positive and below 1e-7 km"
  },
  {
   "property": "C55",
   "status": "partial",
   "theorems": [
    "C55_unpack",
    "C55_pack",
    "C55_swap",
    "C55_swap_involutive",
    "C55_angles3D",
    "C55_range3D",
    "C55_node3D",
    "C55_angles2D",
    "C55_range_refuted"
   ],
   "note": "packing, swapping, interpolation and quality; ranges of the result hold when the dips of the file are in range, for arbitrary words they do not (C55_range_refuted)"
  },
  {
   "property": "C56",
   "status": "partial",
   "theorems": [
    "C56_never_early",
    "C56_no_duplicates",
    "C56_last_update_refuted"
   ],
   "note": "Never before the earliest delay of some update of that object, one start per wake-up, at most one queue entry per object. The reading 'not before the delay of the latest update' is refuted."
  },
  {
   "property": "C57",
   "status": "partial",
   "theorems": [
    "C57_started_when_alone_partial",
    "C57_batch_all_started",
    "C57_every_due_job_refuted"
   ],
   "note": "Refuted in general (two jobs due in one wake-up: one is never started). Proved for a job due alone and for command-line origins."
  },
  {
   "property": "C58",
   "status": "partial",
   "theorems": [
    "C58_rectangular_region",
    "C58_first_profile",
    "C58_date_line_point_refuted"
   ],
   "note": "Proved when region sides and point are less than a full turn apart; refuted for a point at longitude 180 and a region starting at -180."
  },
  {
   "property": "C59",
   "status": "partial",
   "theorems": [
    "C59_id_coincidence_refuted"
   ],
   "note": "false of the code: the new event's id hides the background event with the same id"
  },
  {
   "property": "C60",
   "status": "partial",
   "theorems": [
    "C60_gaps",
    "C60_station_refuted"
   ],
   "note": "Proved for all lists of azimuths within one turn: the primary gap is the widest arc without a used arrival, the secondary the widest arc with at most one used arrival, primary <= secondary <= 360. The secondary gap counts arrivals and not stations: refuted for stations with P and S (C60_station_refuted)."
  },
  {
   "property": "C61",
   "status": "proved",
   "theorems": [
    "C61_covered",
    "C61_empty_channel_refuted"
   ],
   "note": "For all orders of iteration and any rule for which windows are close. Seiscomp's merge is taken to be the smallest window containing both; the comparison with an erased iterator is taken as false. A stream without a channel code makes the whole batch fail (refuted)."
  },
  {
   "property": "C62",
   "status": "partial",
   "theorems": [
    "C62_file_content_partial",
    "C62_formatted_refuted"
   ],
   "note": "Exact content of every log file after any history. The claim is refuted for the formatting variants, which are dropped when the console level is above the message level."
  },
  {
   "property": "C63",
   "status": "proved",
   "theorems": [
    "C63_long",
    "C63_long_contains",
    "C63_pick",
    "C63_empty_refuted"
   ],
   "note": "for a non-negative maximum delay, offsets on both sides of the pick, non-negative scaling and a travel time that is not negative; C63_empty_refuted: equal offsets convert a NaN or an infinity to an integer"
  },
  {
   "property": "C64",
   "status": "proved",
   "theorems": [
    "C64_d2norm",
    "C64_dnrm2",
    "C64_normal_equations",
    "C64_lsqr_iterations",
    "C64_lsmr_iterations",
    "C64_lsqr",
    "C64_lsqr_exact",
    "C64_lsmr",
    "C64_lsmr_exact"
   ],
   "note": "Iteration bound and documented stopping reason for any arithmetic (floating point with NaN included); norms, reported quantities, meaning of the stopping reasons and optimality in exact arithmetic (rounding left out). Division by zero and roots of negatives have arbitrary values."
  },
  {
   "property": "C65",
   "status": "proved",
   "theorems": [
    "C65_distance",
    "C65_azimuth",
    "C65_distance_km",
    "C65_zero"
   ],
   "note": "over the reals"
  },
  {
   "property": "C66",
   "status": "proved",
   "theorems": [
    "C66_step",
    "C66_residual",
    "C66_events"
   ],
   "note": "Exact arithmetic; columns touched by a row are not zero when normalised (otherwise C39_zero_column_refuted); no observation of an event with itself."
  },
  {
   "property": "C67",
   "status": "proved",
   "theorems": [
    "C67_residuals",
    "C67_bounds",
    "C67_zero",
    "C67_start_and_final"
   ],
   "note": "over R; distinct reference events"
  },
  {
   "property": "C68",
   "status": "partial",
   "theorems": [
    "C68_loop",
    "C68_value",
    "C68_span",
    "C68_samples",
    "C68_linear",
    "C68_upsampling_keeps",
    "C68_same",
    "C68_first_sample_refuted"
   ],
   "note": "false as stated for samples whose window begins before the trace: the conversion to int truncates towards zero and the first sample enters twice (C68_first_sample_refuted); the exact value is proved for every sample"
  },
  {
   "property": "C69",
   "status": "partial",
   "theorems": [
    "C69_arrivals",
    "C69_quality",
    "C69_used_refuted"
   ],
   "note": "All parts proved when some relocated phase has a known station; otherwise *min_element of an empty list is undefined behaviour (C69_quality says exactly when). The number of used phases differs from the number of arrivals marked as used when a station is unknown (C69_used_refuted). The copied attributes of the origin are not modelled."
  },
  {
   "property": "C70",
   "status": "proved",
   "theorems": [
    "C70_move",
    "C70_still",
    "C70_gradient",
    "C70_slowness",
    "C70_observation"
   ],
   "note": "over R; derivative theorem for the homogeneous table (straight rays), slowness vector theorem for any table giving dip and velocity"
  },
  {
   "property": "C71",
   "status": "proved",
   "theorems": [
    "C71_import",
    "C71_no_exception",
    "C71_unused",
    "C71_order_refuted",
    "C71_atomic_refuted"
   ],
   "note": "catalog ids below 2^32. The refuted theorems document that the phases of an origin can depend on the origins imported before it, and that an exception leaves a partly imported catalog"
  },
  {
   "property": "C72",
   "status": "partial",
   "theorems": [
    "C72_cache",
    "C72_once",
    "C72_total",
    "C72_preload",
    "C72_measurement",
    "C72_exchange",
    "C72_order",
    "C72_unset_refuted"
   ],
   "note": "Proved except for the last sentence, which is false: C72_unset_refuted gives a pair with different bands whose entry holds values that were never assigned. C72_exchange supposes that both directions, when both are measured, do not give equally large coefficients with different results, and that the components of both phases agree."
  },
  {
   "property": "C73",
   "status": "partial",
   "theorems": [
    "C73_copy",
    "C73_arrivals",
    "C73_centres",
    "C73_unscaled",
    "C73_corrected",
    "C73_bias",
    "C73_scaled_refuted"
   ],
   "note": "Proved for windows that are not scaled (C73_corrected) if the difference of the numbers of samples is even and the traces cover their windows. With scaled windows it is false with the default S options (C73_scaled_refuted); C73_bias gives the size of the error."
  },
  {
   "property": "C74",
   "status": "partial",
   "theorems": [
    "C74_single_result",
    "C74_single_empty",
    "C74_single_total",
    "C74_two_steps",
    "C74_result_is_step2",
    "C74_start_rms_refuted",
    "C74_stale_step2_refuted",
    "C74_step1_lost_refuted",
    "C74_message_refuted"
   ],
   "note": "The content of the result, when it is empty and the absence of undefined behaviour are proved. Refuted: the start rms is that of step 2, as the catalog of step 1 is looked at after it was moved from; a result is returned although step 2 solved nothing; step 1's location is lost if step 2 has too few neighbours; with 34 or more but too few neighbours the message reads beyond its literal. The selection, the solver and the correlations are arguments."
  },
  {
   "property": "C75",
   "status": "partial",
   "theorems": [
    "C75_extra_transparent",
    "C75_extra_rounding_refuted",
    "C75_extra_unavailable_refuted",
    "C75_mean",
    "C75_offset",
    "C75_loads",
    "C75_gain",
    "C75_single_channel",
    "C75_l2",
    "C75_rt_partial",
    "C75_samples",
    "C75_defined",
    "C75_succeeds",
    "C75_aligned",
    "C75_short_refuted",
    "C75_margin_refuted"
   ],
   "note": "Coverage, frequency, codes, samples, offset, gain, requests, definedness and existence proved. False as stated, with witnesses: cutting a longer window gives other samples when the period is no whole number of microseconds, and nothing if the longer window is not recorded; L2/RT lose the last sample at such frequencies; a resampled trace is too short without a margin. The start of radial and transversal traces may be early (also C49)."
  },
  {
   "property": "C76",
   "status": "proved",
   "theorems": [
    "C76_rejected",
    "C76_unique",
    "C76_accepted",
    "C76_execution",
    "C76_due_alone",
    "C76_batch",
    "C76_stale_refuted",
    "C76_no_mode_refuted"
   ],
   "note": "Proved for all executions. That several jobs due in one wake-up are all processed is false (C57). Two stronger expectations are refuted by witnesses: an update that arrives as another object is ignored for a process that exists; an accepted origin without evaluation mode ends the program."
  },
  {
   "property": "C77",
   "status": "proved",
   "theorems": [
    "C77_words",
    "C77_lines",
    "C77_rows",
    "C77_name",
    "C77_transform",
    "C77_tree",
    "C77_velocity",
    "C77_defined",
    "C77_discover",
    "C77_discover_defined",
    "C77_unset_refuted",
    "C77_no_source_refuted"
   ],
   "note": "Text of the header to words, rows and values, in both directions; the conversions of numbers, the known ellipsoids and toLatLon are arguments. Without the hypothesis on the transform lines, uninitialised values are read (the two refutations). The name of the model is assumed to have no characters that are special in regular expressions."
  },
  {
   "property": "C78",
   "status": "proved",
   "theorems": [
    "C78_total",
    "C78_clusters",
    "C78_result",
    "C78_xcorr",
    "C78_build"
   ],
   "note": "Composition of the selection (C31), the clusters (C32, C33), the measurements (C72), the relocation of a cluster (C42), the merge of catalogs (C16) and of caches (C05). An already marked event of the input is the exception documented by C42_multi_stale_mark_refuted; therefore C78_result asks for a catalog without marks."
  },
  {
   "property": "C79",
   "status": "partial",
   "theorems": [
    "C79_calls",
    "C79_complete",
    "C79_files",
    "C79_available",
    "C79_total",
    "C79_offline",
    "C79_xcorr_partial",
    "C79_recorder",
    "C79_again",
    "C79_transparent",
    "C79_other_channel_refuted"
   ],
   "note": "Proved over all catalogs, options, sources and disk contents. The cross-correlation of two picks needs no source if the components used for the first pick are also those of the second (C79_xcorr_partial); without configured components and with picks on different channels the channel of the first is asked for at the second and was not preloaded (C79_other_channel_refuted). C79_recorder, C79_again and C79_transparent: recordings with whole microsecond periods, codes without dots."
  },
  {
   "property": "C80",
   "status": "partial",
   "theorems": [
    "C80_table",
    "C80_nad83_refuted",
    "C80_names",
    "C80_wrap",
    "C80_lambert_back",
    "C80_lambert_far_refuted",
    "C80_lambert_opposite",
    "C80_lambert_origin",
    "C80_lambert_conformal",
    "C80_azeq_back",
    "C80_azeq_opposite_refuted",
    "C80_azeq_polar",
    "C80_tm_longitude",
    "C80_tm_mirror",
    "C80_tm_back_mirror",
    "C80_tm_meridian",
    "C80_tm_back_near",
    "C80_tm_sphere_back"
   ],
   "note": "Proved: Lambert and azimuthal projections (round trip, conformality, distances and directions); transverse Mercator on its central meridian, first order aside of it, symmetry. Missing: how well the inverse transverse Mercator series undoes the projection away from the sphere and from the central meridian. Refuted witnesses: Lambert far from the origin, opposite point of the azimuthal projection, misprinted flattening of NAD-83."
  },
  {
   "property": "C81",
   "status": "partial",
   "theorems": [
    "C81_set_model",
    "C81_set_model_when",
    "C81_routed",
    "C81_adapter",
    "C81_list",
    "C81_list_none",
    "C81_first",
    "C81_answer",
    "C81_time",
    "C81_agree",
    "C81_names_refuted",
    "C81_usual",
    "C81_failed"
   ],
   "note": "Proved except that the adapter finds P and S only if the configured lists contain these names; C81_names_refuted is the witness, C81_usual says the defaults do."
  },
  {
   "property": "C82",
   "status": "partial",
   "theorems": [
    "C82_throws",
    "C82_globals",
    "C82_accepted",
    "C82_separate",
    "C82_undocumented",
    "C82_messages",
    "C82_database",
    "C82_region_word_refuted",
    "C82_negative"
   ],
   "note": "Accepted configurations, values, separation of the profiles, messaging and database are proved for every configuration. That unknown region types and negative numbers are refused is false (C82_region_word_refuted, C82_negative). The parser of configuration files (Seiscomp) is not modelled: a value of the wrong type counts as missing."
  },
  {
   "property": "C83",
   "status": "partial",
   "theorems": [
    "C83_one_command",
    "C83_merge_new_ids",
    "C83_merge_keep_ids",
    "C83_merge_nothing",
    "C83_dump_clusters",
    "C83_dump_then_relocate",
    "C83_found_clusters",
    "C83_id_file",
    "C83_dump_catalog",
    "C83_xml_ids",
    "C83_xml_files",
    "C83_failure_writes_nothing",
    "C83_not_loaded"
   ],
   "note": "All of the statement is proved except that a profile that cannot be loaded is always reported as failure: C83_not_loaded shows that --dump-clusters lets an exception escape. Merging assumes less than 2^32 events in total. Files of clusters need at least one neighbour per event (C83_found_clusters; without it see C34_empty_entry_refuted) and codes without comma, quote and newline. The reading of the three files of a catalog (CatalogFile_Model), the travel time tables, the relocation and the conversion to origins are arguments."
  },
  {
   "property": "C84",
   "status": "partial",
   "theorems": [
    "C84_one_answer",
    "C84_trace",
    "C84_batch_equals_single",
    "C84_complete",
    "C84_not_opened",
    "C84_write_read",
    "C84_batch_loader",
    "C84_short_window_refuted",
    "C84_availability_refuted"
   ],
   "note": "Record streams, buffers and merging of records are Seiscomp's and enter as arguments with a stated specification, met by a concrete data source. The two ideal clauses are false: short windows at the border of records are refused, and the availability limit is compared with a percentage"
  },
  {
   "property": "C85",
   "status": "partial",
   "theorems": [
    "C85_round_trip",
    "C85_round_trip_refuted",
    "C85_nearest",
    "C85_order",
    "C85_order_back",
    "C85_slice",
    "C85_defined",
    "C85_last_sample_refuted"
   ],
   "note": "Binary64 arithmetic of Flocq. Windows that end exactly on the last sample can be refused (C85_last_sample_refuted); sampling frequencies that are no whole numbers are not treated."
  },
  {
   "property": "C86",
   "status": "partial",
   "theorems": [
    "C86_forced",
    "C86_ep",
    "C86_alone",
    "C86_ids",
    "C86_exception",
    "C86_no_query",
    "C86_lost_refuted"
   ],
   "note": "All proved for origins whose relocation does not throw, when whether profiles load and the connection do not change meanwhile. The ideal clauses are false: one exception and nothing is written (C86_exception, C86_lost_refuted); without a query object startProcess is undefined (C86_no_query; whether Seiscomp gives one without a database is outside of the code)."
  },
  {
   "property": "C87",
   "status": "partial",
   "theorems": [
    "C87_grid",
    "C87_found",
    "C87_match",
    "C87_general",
    "C87_general_found",
    "C87_general_match",
    "C87_above_one_refuted",
    "C87_self_refuted",
    "C87_spike_refuted"
   ],
   "note": "Proved for samples on a grid of a power of two with n A < 2^26, and for all finite samples between 2^-400 and 2^400 in absolute bound where each window has a variance of at least tau times the square of the bound. Without a condition of this kind the statement is false: C87_above_one_refuted, C87_self_refuted and C87_spike_refuted are witnesses."
  },
  {
   "property": "C88",
   "status": "partial",
   "theorems": [
    "C88_summary",
    "C88_defined",
    "C88_small",
    "C88_single_refuted"
   ],
   "note": "Proved for all caches for which the function is defined. It is undefined exactly in the case of one to three valid entries at a station (C88_small, witness C88_single_refuted)."
  },
  {
   "property": "C89",
   "status": "partial",
   "theorems": [
    "C89_trace",
    "C89_step",
    "C89_defined",
    "C89_table",
    "C89_load",
    "C89_kept",
    "C89_reload",
    "C89_reload_refuted",
    "C89_freed_refuted",
    "C89_field_refuted"
   ],
   "note": "Everything before the parenthesis is proved for all sequences of operations. The three ideal statements in the parenthesis are false; the refuted theorems are witnesses."
  },
  {
   "property": "C90",
   "status": "partial",
   "theorems": [
    "C90_dump",
    "C90_directory",
    "C90_files",
    "C90_overwritten_refuted"
   ],
   "note": "Proved. That every waveform gets its own file is proved for codes without dots and at most one phase of each type per event and station; without this it is false (C90_overwritten_refuted)."
  },
  {
   "property": "C91",
   "status": "partial",
   "theorems": [
    "C91_object",
    "C91_get",
    "C91_parent",
    "C91_arrivals",
    "C91_magnitudes",
    "C91_ids",
    "C91_import",
    "C91_uninitialised_refuted",
    "C91_magnitude_refuted",
    "C91_empty_file_refuted"
   ],
   "note": "Proved for objects of the constructor with three arguments. Refuted: the other constructors leave pointers unset, magnitudes of the event parameters are not found, an empty file of ids is undefined behaviour."
  },
  {
   "property": "C92",
   "status": "partial",
   "theorems": [
    "C92_outside",
    "C92_cell",
    "C92_node_inside",
    "C92_bilinear",
    "C92_trilinear",
    "C92_value3D",
    "C92_value2D",
    "C92_node3D",
    "C92_node2D",
    "C92_time",
    "C92_nan",
    "C92_last_node_refuted",
    "C92_negative_refuted",
    "C92_far_refuted"
   ],
   "note": "Proved: the test of the borders, the cell, the error of the interpolated time and exactness at nodes, in binary64 arithmetic with conversion to float. False, with witnesses: exactness at the last node, no negative times at the far border, cells inside the grid without a bound on the origin. Not modelled: fused operations, velocity and angle grids in double precision."
  },
  {
   "property": "C93",
   "status": "partial",
   "theorems": [
    "C93_lag",
    "C93_within",
    "C93_swap",
    "C93_huge",
    "C93_samples_refuted"
   ],
   "note": "Proved for samples on a grid of powers of two (lag, coefficient, bounds) and without it (exchange of the traces). False: that a delay of n samples given in seconds searches n samples. Ranges of frequency and delay are hypotheses."
  },
  {
   "property": "C94",
   "status": "partial",
   "theorems": [
    "C94_fixed_text",
    "C94_stod",
    "C94_fixed_read",
    "C94_general_read",
    "C94_catalog",
    "C94_rewrite",
    "C94_exact_refuted",
    "C94_tiny_refuted",
    "C94_unreadable_refuted"
   ],
   "note": "The C library functions are modelled from their specification; hexadecimal numbers are not, and decimal texts of subnormal numbers are always refused. Numbers printed with %g must not be between 0 and 2^-1021, otherwise the files may be unreadable (refuted). The hypotheses of C18 about printing are proved here."
  },
  {
   "property": "C95",
   "status": "proved",
   "theorems": [
    "C95_write",
    "C95_roundtrip",
    "C95_rewrite",
    "C95_read",
    "C95_defined",
    "C95_unknown_refuted"
   ],
   "note": "Reading a file that names a station which is not in the catalog is undefined behaviour (C95_unknown_refuted)."
  },
  {
   "property": "C96",
   "status": "proved",
   "theorems": [
    "C96_dd_file",
    "C96_dir_free",
    "C96_dir_seconds",
    "C96_dir_spin",
    "C96_single_off",
    "C96_single_result",
    "C96_single_names",
    "C96_single_files",
    "C96_single_log_closed",
    "C96_single_log_left",
    "C96_multi_names",
    "C96_multi_result",
    "C96_multi_files",
    "C96_multi_log_closed",
    "C96_multi_log_left",
    "C96_log_refuted",
    "C96_foreign_log_refuted"
   ],
   "note": "The stronger claims that a log file holds only the messages of its relocation and that a call without saveProcessing leaves the loggers alone are false: C96_log_refuted, C96_foreign_log_refuted. Text of the station, event, phase and pair files is an argument here; the catalog files are those of C94."
  },
  {
   "property": "C97",
   "status": "proved",
   "theorems": [
    "C97_chosen",
    "C97_exception",
    "C97_unknown_word",
    "C97_complete",
    "C97_cut",
    "C97_import",
    "C97_simple",
    "C97_area",
    "C97_foreign_origin_refuted",
    "C97_depth_refuted",
    "C97_area_text_refuted"
   ],
   "note": "The queries, the parsing of the command line and of numbers, and the printing of numbers are arguments. The area is a rectangle only for longitudes less than a full turn from its western side, as in C58."
  },
  {
   "property": "C98",
   "status": "proved",
   "theorems": [
    "C98_guard",
    "C98_reload",
    "C98_not_configured",
    "C98_existing",
    "C98_stopped",
    "C98_succeeded",
    "C98_lines",
    "C98_archive_refuted",
    "C98_import_refuted",
    "C98_mixed_refuted"
   ],
   "note": "The commands called by the script are arguments; a copy of one file is whole or fails."
  },
  {
   "property": "C99",
   "status": "proved",
   "theorems": [
    "C99_error",
    "C99_refines",
    "C99_counts",
    "C99_constant",
    "C99_bad_sample",
    "C99_constant_refuted",
    "C99_overflow_refuted"
   ],
   "note": "Binary64 (Flocq). The two _refuted theorems are the limits named at the end of the statement."
  }
 ]
}