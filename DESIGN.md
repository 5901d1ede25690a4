# Formal model of scrtdd in Rocq (Coq 8.16.1)

## 1. Trusted base

* Coq's kernel (8.16.1) and `coqc`.
* The correspondence between the Gallina definitions in `rocq/theories/*_Model.v`
  and the C++ in /repo. Each definition carries a comment with the file and lines
  it models and the simplifications made.
* Axioms: `Print Assumptions` is run after each theorem in the `*_Props.v` files.
  Theorems about `Z`, `N`, lists and strings are closed under the global context;
  theorems about real numbers use the axioms of the standard library's `Reals`
  (and what `Reals` itself imports). Section 5 lists the result per theorem.
* No axiom, parameter, admitted proof, functor, module type or plugin is added.

## 2. Layout

For each component X: `X_Model.v` (definitions only), `X_Spec.v` when the
specification is more than one line, `X_Proofs.v` (lemmas), `X_Props.v`
(the theorems named in MANIFEST.json, examples that their hypotheses can be met,
`Print Assumptions`).

## 3. Modelling conventions

* doubles are exact real numbers (`R`) where only algebra matters, an extended
  type (NaN, infinities, finite) where comparisons with NaN decide the outcome.
  Rounding is modelled in `Double_Model`, `XCorrD_Model`, `XcorrLagD_Model`, `GridD_Model` and `Decimal_Model` (binary64 of Flocq).
* time points are integers (microseconds), as in the code.
* `unsigned` ids are `N`; wrap-around is written explicitly where it can happen.
* hash containers: iteration order is an argument (an oracle / arbitrary
  permutation) of the model and universally quantified in the theorems.
* undefined behaviour (out of range access, dereferencing end()) is a distinct
  outcome of the model.
* external services (travel time library, record stream, inventory, file system
  failures) are function arguments, universally quantified.
* a property which is false of the code is kept in the list, refuted by a theorem
  whose name ends in `_refuted`, and what remains true is proved.

## 4. Plan per property

| id | model | proof |
|----|-------|-------|
| C01,C02,C03 | `Lru_Model`: list+map state machine of lrucache.h | invariant over operation lists; refinement to a specification on histories; callback trace accounting; counterexample for overwrite |
| C04 | `Index_Model`: insertion list | invariant |
| C05 | `XCorrCache_Model`: nested maps as association functions | refinement to "last write on the unordered pair" |
| C06,C07 | `Xcorr_Model`: rolling sums over R, search loop with partiality | loop invariant: sums = window sums; Cauchy-Schwarz; maximality by induction |
| C08 | `Xcorr_Model`: DD::xcorr | case analysis, index bounds |
| C09,C10 | `Time_Model`: days/civil conversion over Z, printing and parsing over strings | arithmetic on eras, digit lemmas; counterexample before 1970 |
| C11 | `TimeWindow_Model` | lia |
| C12,C13 | `Csv_Model`: character state machine | induction on fields; UB outcome for empty file |
| C14-C17 | `Catalog_Model`: maps as association lists, multimap as list | invariants over operation lists, permutation statements |
| C18 | `CatalogFile_Model`: rows as string lists | round trip on abstract printed values |
| C19 | `PickWeight_Model`: extended reals | induction on the class list |
| C20 | `Stats_Model`: nth_element as an arbitrary permitted outcome | order statistics lemmas |
| C21-C23 | `Geo_Model`: R trigonometry | real analysis with Reals |
| C24 | `Ellipsoid_Model` | case analysis, induction on layers |
| C25,C26,C27 | `KDTree_Model`: abstract geometry; `KDTree_Earth`: actual distance | induction on trees; concrete counterexample for the Earth |
| C28,C29,C30,C59 | `Select_Model` | invariants of the selection loops; counterexamples |
| C31 | `SelectCatalog_Model` | termination measure, fixpoint invariant |
| C32,C33 | `Cluster_Model`: arbitrary iteration order | loop invariants: partition, connectivity, pair preservation |
| C34 | `Neighbours_Model` | set semantics, round trip |
| C35,C37,C38,C39,C40 | `Solver_Model` | finite sums over R; index invariants |
| C36 | `ResidualWeight_Model`: extended reals | real algebra; NaN counterexample |
| C41,C42,C43,C63 | `DD_Model` | induction on iterations, case analysis |
| C44,C45,C46 | `WfCache_Model` | simulation with the uncached loader |
| C47,C48,C49 | `Trace_Model` | integer/rational rounding |
| C50,C51,C52,C55 | `Grid_Model` | modular arithmetic, real algebra |
| C53 | `NllGrid_Model` on top of `Lru_Model` | invariant over query histories |
| C54 | `Homogeneous_Model` | trigonometric identities |
| C56,C57 | `Sched_Model` | invariant over tick/update lists; counterexample schedule |
| C58 | `Region_Model` | real arithmetic |
| C60 | `Gap_Model` | sorted lists |
| C61 | `LoadTraces_Model` | induction, measure |
| C62 | `Log_Model` | history invariant; counterexample |
| C64 | `Lsqr_Model` | induction on vectors |
| C65 | `Move_Model`: moving events by the solution | real algebra |
| C66 | `SolveSys_Model`: the system as given to LSQR/LSMR | entry-wise equality, optimality |
| C67 | `Residual_Model`: statistics of the residuals | induction on the observations |
| C68 | `Resample_Model`: windowed sinc | finite sums, truncation to integers |
| C69 | `Origin_Model`: conversion of a relocated event into an origin | induction on arrivals |
| C70 | `Homogeneous_Model`, `Move_Model` | derivatives with Reals |
| C71 | `Import_Model`: origins into a catalog | invariants over nested loops with exceptions |
| C72 | `XcorrBuild_Model`: construction of the cross-correlation cache | nested loops flattened into a list of visits; invariant over the list |
| C73 | `XcorrBuild_Model`, `XcorrWindow_Model`, `XCorr_Model`, `AddObs_Model` | Cauchy-Schwarz with equality; bound on the bias |
| C74 | `SingleEvent_Model`: one event in one and two steps | composition of C14, C16, C34, C42 |
| C75 | `WaveProc_Model`: loading and processing waveforms | composition of C47, C48, C49, C68; exact slices with integer periods |
| C76 | `RealTime_Model`: what the real-time program relocates and sends | invariant over executions on top of C56, C57, C58 |
| C77 | `GridHeader_Model`: reading of grid headers and search for the grids of a model | state machine over rows, both directions |
| C78 | `MultiEvent_Model`: relocation of a catalog, cluster by cluster | composition of C05, C16, C31, C32, C33, C42, C72 |
| C79 | `Preload_Model`: preloading the waveforms of the catalog through the disk cache | invariant over the two passes of every event; composition with C45, C46, C47, C72, C75 |
| C80 | `Projection_Model`: ellipsoids, Lambert, azimuthal equidistant and transverse Mercator projections | Lambert: logarithmic forms with derivatives, contraction of the inverse iteration; azimuthal: spherical trigonometry (C23); transverse Mercator: bound on the truncated series of the meridian arc |
| C81 | `Plugin_Model`: travel time plugin for Seiscomp, adapter of its tables | refinement of the native table (C53): every use of the plugin is a sequence of calls of the table |
| C82 | `Config_Model`: reading of the configuration and the command line, from the documented table of parameters (`Config_Spec`) | induction over the profiles with a frame lemma; the keys of two profiles differ because no documented name is a suffix of another |
| C83 | `Commands_Model`: the commands on catalogs, loading of a profile, files of clusters and of origin ids | induction over catalogs and clusters; composition of C16, C31-C34, C71, C78 |
| C84 | `Proxy_Model`: loadTrace, loadTraces, contiguousRecord, writeTrace, readTrace; the record stream, its buffers and the merging of records are arguments with a stated specification (`serves`, `buffers`, `merges`, `measures`) | composition of C46, C48, C61; induction over the records |
| C85 | `Double_Model`: conversions of times and cutting of traces in binary64 (Flocq) | relative error of each operation; integers that differ by less than one |
| C86 | `Once_Model`: the commands --origin-id and --ep on top of `RealTime_Model`; the XML output is a list of objects | an idle scheduler between two origins (C76's invariant), induction over the origins |
| C87 | `XCorrD_Model`: crossCorrelation in binary64 (Flocq), with the structure of `XCorr_Model` | integers in place of the sums, invariant of the rolling sums, relative error of two roots, a product and a quotient; `XCorrD_Error`: bounds on the error of each sum, by induction over samples and lags, for samples that are not on a grid |
| C88 | `XcorrLog_Model`: logXCorrSummary on the cache of `XCorrCache_Model`, neighbours of `Neighbours_Model`, quartiles of `OrderStats_Model` | invariant of the tables by induction over the elements; lists without duplicates that have the same elements |
| C89 | `Profile_Model`: the life of a profile: load, unload, release of waveforms, reload requests, choice of catalog and travel time table | state agrees with the history of actions (invariant over all operations); words of a text by induction |
| C90 | `Dump_Model`: dumpWaveforms on `XcorrBuild_Model` (windows, components, getWaveform), and the files afterwards | lists of writes by induction; injectivity of the file names |
| C91 | `DataSource_Model`: DataSource and the three addToCatalog on `Import_Model` | refinement of the interleaved import to the import of fetched origins, then C71 |
| C92 | `GridD_Model`: the cell and the interpolation of `GridCell_Model` in binary64 (Flocq), with the conversion to float | error analysis of each operation; monotonicity of rounding for the borders; witnesses by computation |
| C93 | `XcorrLagD_Model`: DD::xcorr in binary64 on top of `XCorrD_Model` | C87 for the windows around the middle; commutativity of the product for traces of one length |
| C94 | `Decimal_Model`: printf "%.nf" and "%g" and std::stod as integer arithmetic on binary64 | the text denotes the nearest decimal; rounding to odd for the parser; what is read is nearer to the text than what was printed, hence printing again gives the same text; C18 with these functions |
| C95 | `XCorrFile_Model`: writeToFile/readFromFile of the cache of `XCorrCache_Model` with the numbers of `Decimal_Model` | adding entries without contradictions to an empty cache; permutations of the entries; stability of printed numbers (C94) |
| C96 | `Saved_Model`: the two relocations as sequences of effects (directories, files, log files) with the results of `SingleEvent_Model` and `MultiEvent_Model`; the file of double-differences with the numbers of `Decimal_Model` | names: a static list per cluster, sublists, digits before a dash are unique; results: refinement, the trace projects to the plain result or an exception; log files: effects folded over the map of `Logger_Model` |
| C97 | `ListOrg_Model`: the tool apps/sclistorg/sclistorg.py that makes the list of origins imported by rtddtool: its options, the choice of one origin of each event and its output; `DataSource_Model` reads the output | lists of values: unique decomposition at commas; choice: fold invariant "last of the best among those that pass" with one key for all orders; output: the first field is before every comma and quote, so it is read back whatever the other fields hold |
| C98 | `Script_Model`: scripts/generate-reference-catalog.sh as parts that go on or stop, with the answers of all commands as arguments; `CatalogFile_Model` for the test on the number of lines | case analysis of the beginning, the copies as independent updates of a map, the end by the list of what was done |
| C99 | `DemeanD_Model`: the removal of the mean in binary64 (Flocq); `WaveProc_Model` has it with real numbers | induction on the sum with a relative bound; exactness of sums of integers; C99_refines compares with C75's model; two witnesses |
| C100 | `WeightsD_Model`: computeResidualWeights in binary64, with the median of `OrderStats_Model` on doubles | the weight equals a function of reals with every operation rounded, also on overflow; monotonicity of rounding; neighbouring doubles at the cutoff; the median by an oracle on reals that mirrors the one on doubles |
| C101 | `NormD_Model`: normalizeLon and normalizeAzimuth in binary64, std::fmod computed on integers at the common exponent | fmod is exact (the remainder always fits); bounds of the roundings; the double before 360 |

## 5. Status and assumptions

Theorem names and status per property are in MANIFEST.json. "proved" means that the
property as stated in properties.jsonl is proved for the model; "partial" means that a part
is false of the code (there is a theorem with a name ending in `_refuted`) or that a
restriction, given in the note, is needed.

### 5.1 Axioms per theorem

What `Print Assumptions` lists. All axioms are those of the standard library of Coq:

* D: `ClassicalDedekindReals.sig_forall_dec`
* N: `ClassicalDedekindReals.sig_not_dec`
* F: `FunctionalExtensionality.functional_extensionality_dep`
* C: `Classical_Prop.classic`

"none" means closed under the global context.

| property | theorems | axioms |
|---|---|---|
| C01 | `C01_lru_no_undefined_behaviour`, `C01_lru_bounded_unique` | none |
| C02 | `C02_lru_recency` | none |
| C03 | `C03_lru_evicts_least_recent`, `C03_lru_accounting`, `C03_lru_callback_refuted` | none |
| C04 | `C04_index_bijection`, `C04_index_stable` | none |
| C05 | `C05_xcorrcache_last_write_wins`, `C05_xcorrcache_antisymmetric`, `C05_xcorrcache_no_self_pair`, `C05_xcorrcache_merge` | none |
| C06 | `C06_coefficient`, `C06_rolling` | D F N |
| C06 | `C06_bounded` | C D F N |
| C07 | `C07_first_maximum`, `C07_empty_refuted` | D F N |
| C08 | `C08_in_bounds`, `C08_swap`, `C08_negative_refuted` | D F N |
| C09 | `C09_text_roundtrip`, `C09_text_roundtrip_before_1970`, `C09_text_roundtrip_refuted`, `C09_long_fraction_refuted` | none |
| C10 | `C10_calendar_is_gregorian`, `C10_date_roundtrip`, `C10_date_roundtrip_refuted`, `C10_field_ranges`, `C10_field_order_is_time_order`, `C10_text_order_refuted` | none |
| C11 | `C11_window_start_le_end`, `C11_merge_least_upper_bound`, `C11_overlap_is_intersection`, `C11_contains_is_inclusion`, `C11_window_laws`, `C11_extend_trim` | none |
| C12 | `C12_csv_roundtrip`, `C12_csv_roundtrip_no_final_eol`, `C12_char_after_quote_dropped_refuted`, `C12_embedded_newline_refuted` | none |
| C13 | `C13_csv_header_mapping`, `C13_csv_header_defined`, `C13_empty_file_refuted` | none |
| C14 | `C14_catalog_integrity`, `C14_fill_processing_info`, `C14_station_id_unique`, `C14_station_codes_refuted`, `C14_station_id_collision_refuted` | none |
| C15 | `C15_new_id_unused`, `C15_keep_id`, `C15_wraparound_refuted` | none |
| C16 | `C16_add_keeps_id`, `C16_add_new_id`, `C16_extract`, `C16_merge_keeping_ids`, `C16_merge_new_ids` | none |
| C17 | `C17_remove_event`, `C17_remove_phase` | none |
| C18 | `C18_catalog_roundtrip`, `C18_phase_reloc_lost_refuted`, `C18_separator_refuted` | none |
| C19 | `C19_weight_values`, `C19_out_of_range_lowest`, `C19_class_contains`, `C19_weight_antitone`, `C19_antitone_below_first_refuted` | none |
| C20 | `C20_median`, `C20_median_abs_dev`, `C20_five_number_partial`, `C20_small_refuted`, `C20_order_independent` | none |
| C21 | `C21_normalize_lon`, `C21_normalize_azimuth`, `C21_lon_canonical`, `C21_azimuth_canonical`, `C21_lon_idempotent`, `C21_azimuth_idempotent`, `C21_lon_in_range`, `C21_azimuth_in_range` | D F |
| C22 | `C22_nodes`, `C22_between`, `C22_multi_affine` | D F |
| C22 | `C22_angles_between`, `C22_angles_nodes` | C D F N |
| C23 | `C23_great_circle`, `C23_arc_length`, `C23_range`, `C23_symmetric`, `C23_zero`, `C23_zero_only`, `C23_3d_partial`, `C23_vertical_refuted` | C D F N |
| C24 | `C24_layers_partition`, `C24_outermost`, `C24_layer_range_refuted` | C D F N |
| C24 | `C24_quadrants_cover`, `C24_quadrants_exact`, `C24_first_quadrants_below` | D F |
| C25 | `C25_build`, `C25_search` | none |
| C26 | `C26_radius_sound`, `C26_radius_complete`, `C26_nn_search`, `C26_knn_search`, `C26_best_first`, `C26_knn_zero_refuted` | none |
| C27 | `C27_radius_refuted`, `C27_nn_refuted`, `C27_radius_partial` | C D F N |
| C28 | `C28_select_limits`, `C28_min_phases_duplicate_picks_refuted` | none |
| C29 | `C29_station_range_refuted`, `C29_station_filter_vacuous_partial` | none |
| C30 | `C30_select_terminates`, `C30_nearest_first`, `C30_ellipsoids_exhaustive` | none |
| C30 | `C30_tree_order_refuted`, `C24_layer_range_refuted` | C D F N |
| C31 | `C31_select_catalog_terminates`, `C31_select_catalog_closed`, `C31_single_selection_valid` | none |
| C32 | `C32_clusterize_terminates`, `C32_clusters_are_components` | none |
| C33 | `C33_each_pair_once` | none |
| C34 | `C34_set_of_triples`, `C34_write_defined`, `C34_pair_file_roundtrip`, `C34_to_catalog`, `C34_empty_entry_refuted`, `C34_unknown_station_refuted` | none |
| C35 | `C35_aprod1`, `C35_aprod2`, `C35_adjoint`, `C35_size`, `C35_rhs` | D F |
| C36 | `C36_weights_partial`, `C36_no_spread_refuted` | D F |
| C37 | `C37_missing`, `C37_rows`, `C37_constraints`, `C37_any_names` | none |
| C37 | `C37_entry` | D F |
| C38 | `C38_reported`, `C38_at_refuted` | none |
| C39 | `C39_unit_norm`, `C39_defined`, `C39_least_squares`, `C39_zero_column_refuted` | D F N |
| C40 | `C40_changes`, `C40_observed`, `C40_solve`, `C40_used`, `C40_any_names` | none |
| C41 | `C41_start_end`, `C41_range`, `C41_monotone`, `C41_one_iteration`, `C41_one_iteration_refuted`, `C41_last_pass_refuted` | D F |
| C42 | `C42_total`, `C42_output`, `C42_outside`, `C42_cluster`, `C42_single`, `C42_multi`, `C42_stale_mark_refuted`, `C42_multi_stale_mark_refuted` | none |
| C43 | `C43_observations`, `C43_missing_pick_refuted` | D F N |
| C43 | `C43_weight`, `C43_weight_monotone`, `C43_symmetric` | D F |
| C44 | `C44_transparent_partial`, `C44_asked_once`, `C44_parameters_refuted`, `C44_clash_refuted`, `C44_failure_refuted` | none |
| C45 | `C45_transparent_partial`, `C45_uninterrupted`, `C45_interrupted_refuted` | none |
| C46 | `C46_requests_once`, `C46_loaded_once`, `C46_answer_partial`, `C46_answer_refuted` | none |
| C47 | `C47_window_to_load_partial`, `C47_before_1970_refuted` | none |
| C48 | `C48_defined`, `C48_slice`, `C48_succeeds`, `C48_contained_refuted` | none |
| C49 | `C49_projection`, `C49_energy_3d`, `C49_energy`, `C49_rt_partial`, `C49_rt_start_refuted` | C D F N |
| C49 | `C49_l2`, `C49_no_overlap_refuted` | D F N |
| C50 | `C50_place`, `C50_disjoint`, `C50_read`, `C50_close`, `C50_open`, `C50_overflow_refuted`, `C50_short_load_refuted` | none |
| C51 | `C51_cell`, `C51_value3D`, `C51_between3D`, `C51_node3D`, `C51_outside3D`, `C51_sound3D`, `C51_value2D`, `C51_between2D`, `C51_outside2D`, `C51_sound2D`, `C51_time_file`, `C51_no_ub`, `C51_flat`, `C51_nan_refuted` | D F |
| C51 | `C51_units`, `C51_vel2D` | D F N |
| C52 | `C52_rotation`, `C52_azimuth`, `C52_pole_refuted` | D F N |
| C52 | `C52_angles`, `C52_header_checked` | D F |
| C52 | `C52_sdc_factors`, `C52_there_and_back`, `C52_back_and_there`, `C52_orientation`, `C52_header`, `C52_sdc_pole_refuted` | C D F N |
| C53 | `C53_time_sound`, `C53_time`, `C53_full_sound`, `C53_full`, `C53_agree`, `C53_open_bound`, `C53_close_refuted`, `C53_zero_refuted`, `C53_transient_refuted` | D F N |
| C53 | `C53_nearest` | C D F N |
| C53 | `C53_alike_refuted` | D F |
| C54 | `C54_phases`, `C54_agree_partial`, `C54_slowness`, `C54_agree_refuted` | C D F N |
| C55 | `C55_unpack`, `C55_pack`, `C55_swap`, `C55_swap_involutive` | none |
| C55 | `C55_angles3D`, `C55_range3D`, `C55_node3D`, `C55_angles2D` | C D F N |
| C55 | `C55_range_refuted` | D F |
| C56 | `C56_never_early`, `C56_no_duplicates`, `C56_last_update_refuted` | none |
| C57 | `C57_started_when_alone_partial`, `C57_batch_all_started`, `C57_every_due_job_refuted` | none |
| C58 | `C58_rectangular_region`, `C58_first_profile`, `C58_date_line_point_refuted` | none |
| C59 | `C59_id_coincidence_refuted` | none |
| C60 | `C60_gaps`, `C60_station_refuted` | D F |
| C61 | `C61_covered`, `C61_empty_channel_refuted` | none |
| C62 | `C62_file_content_partial`, `C62_formatted_refuted` | none |
| C63 | `C63_long`, `C63_long_contains`, `C63_pick`, `C63_empty_refuted` | none |
| C64 | `C64_d2norm`, `C64_dnrm2`, `C64_lsqr`, `C64_lsqr_exact`, `C64_lsmr`, `C64_lsmr_exact` | D F N |
| C64 | `C64_normal_equations` | D F |
| C64 | `C64_lsqr_iterations`, `C64_lsmr_iterations` | none |
| C65 | `C65_distance`, `C65_azimuth`, `C65_distance_km`, `C65_zero` | C D F N |
| C66 | `C66_step`, `C66_events` | D F N |
| C66 | `C66_residual` | D F |
| C67 | `C67_residuals`, `C67_start_and_final` | D F N |
| C67 | `C67_bounds`, `C67_zero` | D F |
| C68 | `C68_loop`, `C68_value`, `C68_span`, `C68_samples`, `C68_linear`, `C68_upsampling_keeps`, `C68_same`, `C68_first_sample_refuted` | D F N |
| C69 | `C69_arrivals`, `C69_quality`, `C69_used_refuted` | D F |
| C70 | `C70_move`, `C70_still`, `C70_gradient` | C D F N |
| C70 | `C70_slowness`, `C70_observation` | D F N |
| C71 | `C71_import`, `C71_no_exception`, `C71_unused`, `C71_order_refuted`, `C71_atomic_refuted` | none |
| C72 | `C72_cache`, `C72_once`, `C72_total`, `C72_order` | D F |
| C72 | `C72_preload`, `C72_unset_refuted` | D F N |
| C72 | `C72_measurement`, `C72_exchange` | C D F N |
| C73 | `C73_copy`, `C73_arrivals`, `C73_corrected`, `C73_scaled_refuted` | D F N |
| C73 | `C73_centres`, `C73_unscaled`, `C73_bias` | D F |
| C74 | `C74_single_result`, `C74_single_empty`, `C74_single_total`, `C74_two_steps`, `C74_result_is_step2`, `C74_start_rms_refuted`, `C74_stale_step2_refuted`, `C74_step1_lost_refuted`, `C74_message_refuted` | none |
| C75 | `C75_extra_transparent` | none |
| C75 | `C75_extra_rounding_refuted`, `C75_extra_unavailable_refuted` | D |
| C75 | `C75_mean` | D F |
| C75 | `C75_offset`, `C75_loads`, `C75_gain`, `C75_single_channel`, `C75_l2`, `C75_rt_partial`, `C75_samples`, `C75_defined`, `C75_succeeds`, `C75_aligned`, `C75_short_refuted`, `C75_margin_refuted` | C D F N |
| C76 | `C76_rejected`, `C76_unique`, `C76_accepted`, `C76_execution`, `C76_due_alone`, `C76_batch`, `C76_stale_refuted`, `C76_no_mode_refuted` | none |
| C77 | `C77_words`, `C77_lines`, `C77_rows`, `C77_name`, `C77_transform`, `C77_tree`, `C77_velocity`, `C77_defined`, `C77_discover`, `C77_discover_defined`, `C77_unset_refuted`, `C77_no_source_refuted` | none |
| C78 | `C78_total`, `C78_clusters`, `C78_result`, `C78_xcorr` | none |
| C78 | `C78_build` | D F |
| C79 | `C79_calls`, `C79_complete`, `C79_files`, `C79_available`, `C79_total`, `C79_recorder`, `C79_again` | none |
| C79 | `C79_offline`, `C79_xcorr_partial`, `C79_transparent` | C D F N |
| C79 | `C79_other_channel_refuted` | D |
| C80 | `C80_table`, `C80_nad83_refuted`, `C80_wrap`, `C80_tm_longitude` | D F |
| C80 | `C80_names`, `C80_tm_back_mirror` | D F N |
| C80 | `C80_lambert_back`, `C80_lambert_far_refuted`, `C80_lambert_opposite`, `C80_lambert_origin`, `C80_lambert_conformal`, `C80_azeq_back`, `C80_azeq_opposite_refuted`, `C80_azeq_polar`, `C80_tm_mirror`, `C80_tm_meridian`, `C80_tm_back_near`, `C80_tm_sphere_back` | C D F N |
| C81 | `C81_set_model`, `C81_set_model_when`, `C81_list`, `C81_usual` | D |
| C81 | `C81_routed`, `C81_list_none` | none |
| C81 | `C81_adapter`, `C81_answer`, `C81_time`, `C81_agree`, `C81_names_refuted`, `C81_failed` | D F N |
| C81 | `C81_first` | D F |
| C82 | `C82_throws`, `C82_globals`, `C82_accepted`, `C82_separate`, `C82_undocumented`, `C82_messages`, `C82_database`, `C82_region_word_refuted`, `C82_negative` | none |
| C83 | `C83_one_command`, `C83_merge_new_ids`, `C83_merge_keep_ids`, `C83_merge_nothing`, `C83_dump_clusters`, `C83_dump_then_relocate`, `C83_found_clusters`, `C83_id_file`, `C83_dump_catalog`, `C83_xml_ids`, `C83_xml_files`, `C83_failure_writes_nothing`, `C83_not_loaded` | none |
| C84 | `C84_one_answer`, `C84_trace`, `C84_batch_equals_single`, `C84_complete`, `C84_not_opened`, `C84_write_read`, `C84_batch_loader`, `C84_short_window_refuted`, `C84_availability_refuted` | none |
| C85 | `C85_round_trip`, `C85_round_trip_refuted`, `C85_nearest`, `C85_order`, `C85_order_back`, `C85_slice`, `C85_defined`, `C85_last_sample_refuted` | C D F N |
| C86 | `C86_forced`, `C86_ep`, `C86_alone`, `C86_ids`, `C86_exception`, `C86_no_query`, `C86_lost_refuted` | none |
| C87 | `C87_grid`, `C87_found`, `C87_match`, `C87_general`, `C87_general_found`, `C87_general_match`, `C87_above_one_refuted`, `C87_self_refuted`, `C87_spike_refuted` | C D F N |
| C88 | `C88_summary`, `C88_defined`, `C88_small`, `C88_single_refuted` | D F |
| C89 | `C89_trace`, `C89_step`, `C89_defined`, `C89_table`, `C89_load`, `C89_kept`, `C89_reload`, `C89_reload_refuted`, `C89_freed_refuted`, `C89_field_refuted` | none |
| C90 | `C90_dump`, `C90_directory`, `C90_files` | none |
| C90 | `C90_overwritten_refuted` | D |
| C91 | `C91_object`, `C91_get`, `C91_parent`, `C91_arrivals`, `C91_magnitudes`, `C91_ids`, `C91_import`, `C91_uninitialised_refuted`, `C91_magnitude_refuted`, `C91_empty_file_refuted` | none |
| C92 | `C92_outside`, `C92_cell`, `C92_node_inside`, `C92_bilinear`, `C92_trilinear`, `C92_value3D`, `C92_value2D`, `C92_node3D`, `C92_node2D`, `C92_time`, `C92_nan`, `C92_last_node_refuted`, `C92_negative_refuted`, `C92_far_refuted` | C D F N |
| C93 | `C93_lag`, `C93_within`, `C93_swap`, `C93_huge`, `C93_samples_refuted` | C D F N |
| C94 | `C94_fixed_text` | D F |
| C94 | `C94_stod`, `C94_fixed_read`, `C94_general_read`, `C94_catalog`, `C94_rewrite`, `C94_exact_refuted`, `C94_tiny_refuted`, `C94_unreadable_refuted` | C D F N |
| C95 | `C95_write` | none |
| C95 | `C95_roundtrip`, `C95_rewrite`, `C95_read`, `C95_defined`, `C95_unknown_refuted` | C D F N |
| C96 | `C96_dd_file` | C D F N |
| C96 | `C96_dir_free`, `C96_dir_seconds`, `C96_dir_spin`, `C96_single_off`, `C96_single_result`, `C96_single_names`, `C96_single_files`, `C96_single_log_closed`, `C96_single_log_left`, `C96_multi_names`, `C96_multi_result`, `C96_multi_files`, `C96_multi_log_closed`, `C96_multi_log_left`, `C96_log_refuted`, `C96_foreign_log_refuted` | none |
| C97 | `C97_chosen`, `C97_exception`, `C97_unknown_word`, `C97_complete`, `C97_cut`, `C97_import`, `C97_simple`, `C97_area`, `C97_foreign_origin_refuted`, `C97_depth_refuted`, `C97_area_text_refuted` | none |
| C98 | `C98_guard`, `C98_reload`, `C98_not_configured`, `C98_existing`, `C98_stopped`, `C98_succeeded`, `C98_lines`, `C98_archive_refuted`, `C98_import_refuted`, `C98_mixed_refuted` | none |
| C99 | `C99_error`, `C99_refines`, `C99_counts`, `C99_constant`, `C99_bad_sample`, `C99_constant_refuted`, `C99_overflow_refuted` | C D F N |
| C100 | `C100_median`, `C100_weights`, `C100_cutoff`, `C100_no_spread_refuted` | C D F N |
| C101 | `C101_azimuth`, `C101_longitude`, `C101_longitude_range`, `C101_longitude_exact`, `C101_bad`, `C101_identity_refuted` | C D F N |

### 5.2 What is modelled

| code | model | left out |
|---|---|---|
| libs/hdd/lrucache.h, index.h, xcorrcache.h/.cpp | Lru, Index, XCorrCache, XCorrFile | I/O errors, the text of the exception |
| libs/hdd/xcorr.cpp, dd.cpp 1442-1888 (windows, xcorr, statistics) | XCorr, XCorrD (crossCorrelation in binary64), XcorrWindow, XcorrBuild, XcorrLog | rounding elsewhere, exception flags, texts of the log |
| libs/hdd/utctime.cpp/.h, timewindow.h | Time, TimeWindow, Double (secToDur, durToSec in binary64) | 64 bit overflow, leap seconds (there are none in the code either) |
| libs/hdd/csvreader.cpp | Csv | streams that fail while reading |
| libs/hdd/catalog.cpp/.h | Catalog, CatalogFile, Decimal, PickWeight | hexadecimal numbers in files |
| libs/hdd/utils.cpp/.h | Geo, OrderStats, NormD (normalizeLon, normalizeAzimuth in binary64) | rounding elsewhere; files and directories |
| libs/hdd/kdtree.h, ellipsoid.h | KdTree, KdGeo, Ellipsoid | memory management |
| libs/hdd/clustering.cpp | Select, SelectCatalog, Cluster, Neighbours | logging |
| libs/hdd/solver.cpp/.h, 3rd-party lsqr/lsmr | Solver, DDSystem, SolveSys, ResWeights, WeightsD (residual weights in binary64), Lsq, Lsqr, Lsmr | rounding; standard errors and local reorthogonalisation of LSMR |
| libs/hdd/dd.cpp 169-204, 223-377 (waveform access, preloading, dumping) | Preload, Dump | counters, logging; state after an exception |
| libs/hdd/dd.cpp relocation loop, single and multiple events, observations, residuals | Reloc, SingleEvent, MultiEvent, AddObs, Residual, Move, Saved | texts of log messages; in Saved the content of the pair file is an argument and the cluster number has no limit of 32 bits |
| libs/hdd/waveform.cpp/.h, trace.h | WaveCache, WaveProc, Trace, Double (slice in binary64), DemeanD (mean in binary64), Transform, Rotate, Resample | filters (an argument) |
| libs/hdd/log.cpp | Logger | |
| plugins/ttt/nll/nll_ttt.cpp, libs/hddsc/ttt.cpp | Plugin | memory of lists, log |
| libs/hddsc/utils.cpp, waveform.cpp | Import, DataSource, Origin, LoadTraces, Proxy | Seiscomp's data model, record streams and record sequences (arguments), filters, components from the inventory |
| apps/scrtdd/rtddtool.cpp configuration, scheduling, processing of objects, regions, relocation of an origin | Config, Commands, Once, Scheduler, RealTime, Region, SingleEvent, Profile | reading of XML, assembly of messages |
| apps/sclistorg/sclistorg.py | ListOrg | the queries to the database, parsing of the command line and of times, float(), str() of numbers (arguments) |
| scripts/generate-reference-catalog.sh | Script | the commands themselves (arguments), the contents of the web page and of the database; the other scripts (plots and comparison) |
| plugins: nllgrid.cpp, grid.cpp | GridFile, GridHeader, GridCell, GridD, Interp, GridAngle, Table, NllTtt, Coord, Transform, Projection (GMT) | projections of GMT that grids do not use |

Rounding of floating point numbers is left out everywhere except in `Double_Model` (C85), `GridD_Model` (C92),
`XCorrD_Model` (C87), `XcorrLagD_Model` (C93), `Decimal_Model` (C94), `XCorrFile_Model` (C95), `Saved_Model` (C96), `DemeanD_Model` (C99), `WeightsD_Model` (C100) and `NormD_Model` (C101):
elsewhere, where the code uses `double`, the model has real or rational numbers, extended by NaN and infinities where these decide
the outcome. Memory exhaustion and threads are left out (the modelled code has no threads).

### 5.3 Findings

What the refuted theorems and the stated restrictions mean for the code.

* lrucache: overwriting a key and clear() drop values without a callback (C03).
* xcorr: an empty short trace is read before its beginning (C07).
* UTCClock: times before 1970 with a fraction, and the seconds -2 to -1, do not survive
  printing; long fractions are misread; printed times do not sort (C09, C10).
* csv: the character after a closing quote is dropped; an empty file reads `rows[0]` of an
  empty vector (C12, C13).
* catalog: codes with dots give colliding station ids; the id counter wraps (C14, C15).
* order statistics: one to three values violate the precondition of nth_element (C20).
  This happens at the end of every construction of a cross-correlation cache in which a
  station has one to three valid correlations: logXCorrSummary (C88).
* geometry: vertical distances below 1e-7 km are ignored (C23, C54); the distances used to
  prune the KD-tree are no lower bounds on the sphere, so neighbours can be missed (C27,
  C30).
* clustering: the filter on event-to-station distances joins its two tests with `||` and so
  rejects nothing (C29); the id of a new event hides the background event with the same id
  (C59).
* solver: '@' in a phase name merges observations (C38); a zero column gives NaN (C39);
  equal residuals give weight zero or NaN (C36); `_stats` is not cleared between calls of
  prepare; the distance cache is never filled.
* lsmr: `std::fill(w, v + n, zero)` fills an empty range (harmless); an iteration limit of
  zero still performs one iteration.
* relocation: interpolated parameters are wrong for a single iteration and in the last pass
  (C41); relocation marks of the input are passed on (C42); a cluster file naming a missing
  pick is undefined behaviour (C43); relocateSingleEvent leaks its file logger on an early
  return and reads begin() of an empty catalog.
* single events: a catalog is tested for emptiness after it was moved from, so that the rms
  before step 1 is never reported; step 2 reports the location of step 1 as its success when
  its own system cannot be solved; the result of step 1 is lost when step 2 has too few
  neighbours; the message about them adds a number to a string literal, which reads outside
  of it from 34 on (C74). Origins without evaluation mode throw.
* waveform caches: the id of a trace leaves out the filter (C44); an interrupted write can
  be read as a complete shorter trace (C45); batch requests can fail although the trace was
  delivered (C46); windows before 1970 are not rounded (C47); rotated traces take the start
  time of the first component (C49); resampling near the left border counts the first sample
  twice (C68); with sampling periods that are no whole number of microseconds (30, 75 or 120
  Hz), cutting a longer window can give another first sample than cutting the recording, and
  rotated or combined components lose their last sample; a recording that has the window but
  not the longer one is not used (C75).
* waveform proxy: a request of less than a hundred samples can fail at the border of two
  records although everything was recorded; the limit minAvailability = 0.95 is compared with
  a percentage, so that it refuses only data that cover less than a hundredth of the window
  (C84).
* slice: a window that ends on the last sample of a trace can be refused because the index of
  its end is rounded up; with 100 Hz and windows of less than ten seconds this is about one
  window in fifteen. It concerns C46, C48, C75 and C84, whose models are exact (C85).
* cross-correlation: coefficient and lag stay unassigned when bands differ (C72); the lag is
  relative to the centres of the windows, so scaled windows that are not symmetric about the
  pick give a bias of (s1 - s2)(startOffset + endOffset)/2, where s1 and s2 are the factors
  by which the windows are scaled; 10 ms for a travel time difference of 1.5 s with the
  default options for S (C73); an odd difference of the numbers of samples gives half a
  sample more; a failed slice in one direction discards the other direction.
* crossCorrelation in double precision: the rolling sums and n*sum(x^2) - sum(x)^2 cancel.
  They are exact while n times the largest sample, in units of the last bit used, is below
  2^26; beyond, an offset or one large sample (a spike) in the long trace gives NaN, an
  infinite coefficient, a coefficient of -2, or the wrong lag for all later windows. Nothing
  rejects coefficients above 1. Traces without a
  large offset and without spikes are not concerned: where the variance of each window is at
  least tau times the square of the largest sample, the error of the coefficient is at most
  160 (sizeL + 1) / (2^53 tau) (C87).
* commands on origins: an exception for one origin (for instance one without evaluation mode)
  ends the program before anything is written, so the results of all other origins are lost;
  startProcess uses query() without a test, also when --ep disabled the database (C86).
* grids: sizes that overflow 64 bits and short loads in memory give wrong values (C50); a
  NaN depth is undefined behaviour (C51); SDC origins between 89 and 90 degrees north have
  a negative latitude factor (C52); angles outside their range are not rejected (C55);
  closeOpenFiles leaves the grids open; stations equal to six decimals share a grid (C53);
  a header with repeated transform lines is accepted without its first line or its source
  and uninitialised members are read (C77); Lambert coordinates more than about 127 degrees
  of longitude from the origin (depending on the cone) are mapped back to another longitude,
  standard parallels of opposite signs divide by zero, the point opposite of an azimuthal
  origin is put on the origin, and the flattening of NAD-83 has a misprint that moves its
  poles by 290 m (C80); the lists P-Phases and S-Phases must contain P and S or the library
  finds no travel times, and an event outside of the grid of P makes the list of arrivals
  fail although S has one (C81); the name of the model is used as a regular
  expression without quoting.
* scheduler: of two jobs due in the same wake-up one is never started (C57); a longitude of
  180 is outside a region that starts at -180 (C58).
* real-time program: the object of a process is not replaced by an update, so if the update
  is another object in memory, the origin preferred before is relocated (C76); an origin
  without evaluation mode counts as automatic and then ends the program with an exception,
  which also leaves the other objects of the message unprocessed (C76); every timeout loads
  all unloaded profiles, also those unloaded as unused, and tries failed ones again each
  second.
* data source: the constructors with one and two arguments leave the other pointers without a
  value and every use of such an object is undefined (only the third is used); magnitudes are
  never looked for in the event parameters, so that an event of an XML file has no magnitude
  unless the cache knows it; an empty file of ids is undefined behaviour (C91).
* grids: at the last node of an axis the interpolation a + 1 (b - a) need not be b; at the far
  border the position in the cell can be more than 1, so that a grid without negative times
  can give a (tiny) negative time; a location that is not a number passes the check of the
  borders and its index is undefined (C92).
* DD::xcorr: the maximum delay times the frequency is truncated after rounding, so that 0.29 s
  at 100 Hz search 28 samples, not 29 (C93).
* catalog files: a relocated event or phase with a number between 0 and 2^-1022, such as a
  residual of 1e-320, is written but makes the whole catalog unreadable, since std::stod throws
  (C94).
* cache files: reading a line with a station that is not in the catalog dereferences end(), and
  the catch block does not help (C95).
- relocateSingleEvent returns early with too few neighbours and does not remove its file logger; any exception has
  the same effect in both relocations. The file then receives the messages of all later relocations (C96).
- relocateSingleEvent removes the file logger also without saveProcessing, when it did not add it (C96).
- generateWorkingSubDirPath seeds its generator with whole seconds, so the random number does not distinguish names
  of the same second, and the loop that waits for a free name spins until the second is over (C96).
* sclistorg: an origin that the filters exclude still aborts the listing if it has no creation time and the order is
  first or last; an origin without depth aborts it if an area is given; an area with less than four numbers, or with text in
  place of one, is silently no area; an unknown --org-type silently lists the last origin; the output of --simple has no
  header, and rtddtool drops its only origin or rejects the file (C97).
* generate-reference-catalog.sh: if tar fails the results are deleted all the same, with exit status 0; a failed import is
  reported as done; a failed copy leaves files of two catalogs side by side, and the events missing (C98).
* Removing the mean of a constant trace leaves samples that are not zero (ten times 0.1); a single sample that is
  not a number makes the whole trace so (C99).
* dumpWaveforms: two phases of the same type of one event at one station share a file name (C90).
* profiles: a reload request is answered with success before anything is loaded, and if the new
  files cannot be read the profile stays unloaded (C89); the time of last usage is the beginning
  of a relocation, so the waveforms of one that took longer than profileTimeAlive are released
  at once (C89); an empty field of tableModel, also in the place of "swapBytes", makes the model
  invalid since adjacent separators count as one, and maxOpenFiles is taken modulo 2^32 (C89).
* configuration: a region type other than RECTANGULAR is silently a circle, the check for an
  invalid type cannot fail; negative numbers of phases or neighbours become about 4e9; a value
  of the wrong type is silently replaced by the default; the default of profileTimeAlive is
  600 in the documentation and 3600 in the shipped configuration (C82).
* commands: when a profile cannot be loaded, --dump-clusters, --dump-wf and --load-profile-wf
  let an exception escape while --reloc-catalog reports failure, and --merge-catalogs lets
  the exception of an unreadable file escape (C83); an id file with one origin that cannot be
  imported gives an empty catalog (C83); the log messages of --dump-clusters name the
  following cluster.
* origins: the secondary gap counts arrivals, not stations (C60); without a used phase at a
  known station `*min_element` of an empty list is read (C69); an origin without depth makes
  the import throw with a partly filled catalog, and the phases of an origin can depend on
  the origins imported before it (C71).
* log: the formatting variants drop messages above the console level, also for log files
  (C62).
