import json
C=[]
def c(pid,status,theorems,note=""):
    C.append(dict(property=pid,status=status,theorems=theorems,note=note))
c("C01","proved",["C01_original_minimax"],"NaN-free elevations; every tie-break of the heap")
c("C02","proved",["C02_improved_minimax","C02_improved_equals_original"])
c("C03","proved",["C03_original_laws","C03_improved_laws"])
c("C04","proved",["C04_has_depressions","C04_has_depressions_vs_fill"])
c("C05","proved",["C05_pit_mask"])
c("C06","proved",["C06_watersheds"],"alter_elevations needs the documented precondition that NoData lies below all data")
c("C07","proved",["C07_flowdirs_exit"])
c("C34","proved",["C34_max_dep","C34_max_dep_pools","C34_small_pools_counted_jointly_refuted"],"the naive reading 'fills every depression of at most N cells' is refuted")
c("C35","proved",["C35_epsilon"],"floats as ordinals, nextafter as successor")
c("C08","proved",["C08_union_find","C08_makeSet_max_id_refuted"],"ids below 2^32-1; makeSet(2^32-1) deletes all sets (refuted)")
c("C09","proved",["C09_merge","C09_merge_cycle_refuted"])
c("C10","proved",["C10_lru_invariants","C10_lru_textbook","C10_lru_recency","C10_evicted_last_refuted"])
c("C25","proved",["C25_cell_operators","C25_low_queue","C25_high_queue","C25_counter_overflow_refuted"],"up to 2^31 insertions; beyond that tie order is refuted")
c("C32","proved",["C32_assignment_frees_wrapped_refuted","C32_frees_external_iff","C32_careful_programs_safe","C32_copy_deep"],"the literal claim is refuted; the exact condition is proved")
c("C33","proved",["C33_tables","C33_offsets_once","C33_arcgis"])
c("C36","proved",["C36_log_depth"])
c("C11","proved",["C11_constructors","C11_addressing_bijective","C11_neighbour_lookup","C11_nshift","C11_edge_by_index","C11_size_overflow","C11_get_set"])
c("C12","proved",["C12_flipVert","C12_flipHorz_out_of_bounds_refuted","C12_transpose","C12_transpose_refuted"],"flipHorz/transpose defects proved as stated in the property")
c("C13","proved",["C13_expand","C13_expand_errors"])
c("C14","proved",["C14_roundtrip","C14_truncated_file","C14_truncation_undetected_refuted","C14_save_preconditions"],"uncompressed file format; write failures modelled as a prefix of the file")
c("C15","proved",["C15_min_max","C15_countval","C15_replace","C15_bulk_set","C15_border_copies","C15_numDataCells","C15_numDataCells_stale_refuted","C15_equality"])
c("C16","proved",["C16_d8_flow_directions","C16_direction_unique"])
c("C18","proved",["C18_d8_flow_accum","C18_directions_then_accum"])
c("C19","proved",["C19_accum_order_independent","C19_accum_no_overlap","C19_accum_race_refuted"],"the unconditional claim is refuted (data race on the dependency counters); sequentially consistent interleavings of loads and stores")
c("C17","proved",["C17_d8_flow_acyclic","C17_metrics_acyclic"],"D4 metrics: see C22_D4_acyclic")
c("C20","proved",["C20_mass_balance","C20_conservation","C20_dimensions","C20_metric_then_accumulation"],"exact rational arithmetic")
c("C21","proved",["C21_OCallaghan","C21_OCallaghan_lowest","C21_Rho8","C21_Holmgren","C21_Freeman","C21_Quinn","C21_Holmgren_shares","C21_Freeman_shares","C21_Tarboton","C21_Tarboton_shares","C21_Tarboton_larger_share_to_closer_refuted","C21_order_independent"],"exact rational arithmetic; pow, atan2, sqrt and random numbers are parameters with stated assumptions")
c("C22","proved",["C22_D4_routing","C22_Rho4_routing","C22_D4_acyclic","C22_D4_selected_neighbour_refuted"],"the claim that water goes to the selected neighbour is refuted; exact routing proved")
c("C23","proved",["C23_find_flats"])
c("C24","proved",["C24_get_flat_mask","C24_mask_drains","C24_schedule_independent"])
c("C37","proved",["C37_epsilon_drains","C37_epsilon_integer_inverted"],"floats numbered in increasing order, nextafter as successor towards infinity; integer DEMs: infinity()==0, gradient inverted")
c("C38","proved",["C38_flat_directions","C38_flat_directions_drain","C38_altered_directions"])
c('C26','proved',['C26_cached_search','C26_holder_unique'],'Any sequence of cells; every well-formed hierarchy, hence (C28) every one the program builds.')
c('C27','proved',['C27_volumes','C27_schedule_independent'],'Exact (integer) elevations; volume, count, non-negativity, super-additivity; independent of the thread partition.')
c('C28','proved',['C28_hierarchy'],'well_formed lists size, parents, children, ocean links, overflow targets, levels, labels.')
c('C39','proved',['C39_watersheds'],'')
c('C40','proved',['C40_outlets'],'')
c('C41','proved',['C41_spill_levels'],'')
c('C42','proved',['C42_rejects'],'Exceptions inside the OpenMP region count as thrown (in an OpenMP build the program terminates).')
c('C29','proved',['C29_completes','C29_conserves_water','C29_spills_only_when_full','C29_rain_to_depressions'],'exact rational amounts; the code drops amounts below its tolerance 1e-6, hence the slack in the conservation theorem (C29_drops_small_amounts shows it is real)')
c('C31','proved',['C31_water_level','C31_water_level_exact','C31_water_level_completes','C31_fill_conserves','C31_fill_completes','C31_saddle_deficit_refuted','C31_tolerance_refuted'],'exact rational amounts, integer elevations; completed calls conserve water up to the tolerance 1e-6 per cell; the two _refuted theorems show which side conditions of C31_fill_completes the code needs')
c('C30','proved',['C30_settles','C30_no_surface_water_left','C30_conserves_water','C30_watershed_balance','C30_schedule_independent','C30_on_hierarchy','C30_corner_keeps_water_refuted','C30_d4_hierarchy_misread_refuted'],'exact rational water amounts; the two _refuted theorems are witnesses against the documented postcondition')
c('C43','proved',['C43_fill_spill_merge','C43_any_queue','C43_strict_pits','C43_other_queue_refuted'],'saturated ground (no soil deficit), integer elevations, exact rational amounts; most_recent_first is the order of the real queue (C44_queue, C45)')
c('C44','proved',['C44_queue','C44_flat_bottoms','C44_other_queue_refuted'],'')
c('C45','proved',['C45_radix_heap','C45_answers_unique','C45_radix_heap_min_refuted'],'set_non_empty(0) shifts by UINT_MAX, formally undefined, modelled as the no-op that x86 makes of it')
c('C46','proved',['C46_signed_keys','C46_float_keys','C46_negative_zero_refuted'],'IEEE value of a bit pattern defined independently')
c('C47','proved',['C47_zhou_minimax','C47_fill_depressions'],'NaN-free totally ordered elevations')
c('C48','proved',['C48_wei_minimax','C48_wei_equals_fill'],'NaN-free totally ordered elevations')
c('C49','proved',['C49_complete_breaching'],'NaN-free totally ordered elevations')
c('C50','proved',['C50_breaching_with_gradients','C50_breaching_without_gradients'],'elevations do not run below the smallest value of the type; nextafter of an integer type is not modelled (it truncates)')
c('C51','proved',['C51_every_mode','C51_fill_refuted','C51_maxdepth_refuted'],'the documented promises that fail are refuted by concrete runs')
c('C52','proved',['C52_tiled_is_minimax','C52_tiled_equals_whole'],'NaN-free totally ordered elevations; message transport and files are reliable')
c('C53','proved',['C53_missing_tiles','C53_border_of_missing','C53_border_of_missing_refuted','C53_all_missing_undefined'],'the claim that water leaves at every missing tile is refuted; exact characterisation proved')
c('C54','proved',['C54_schedule_independent','C54_cache_never_works','C54_cache_refuted'],'for retention in a cache directory the claim is refuted: such a run never succeeds')
c('C55','proved',['C55_tiled_equals_whole'],'accumulations are integers (the code holds them in doubles, exact below 2^53); message transport and files are reliable; all tiles have the same NoData value')
c('C56','proved',['C56_missing_tiles','C56_pinch_refuted'],'the claim without the corner condition is refuted')
c('C57','proved',['C57_mirrored_tiles','C57_one_row','C57_bad_code','C57_bad_code_reported_refuted','C57_loop_reported','C57_all_loops_reported_refuted'],'')
c('C58','proved',['C58_perimeter','C58_one_column_refuted'],'')
c('C59','proved',['C59_bucket_fill','C59_bad_seed','C59_from_edges'],'values compared for equality only')
c('C60','proved',['C60_program'],'integer elevations, exact water (rationals); files are read and written reliably; a surface water file has the dimensions of the terrain')
c('C61','proved',['C61_square_edge','C61_cell_count','C61_cell_count_refuted'],'exact rational cell sizes')
c('C62','proved',['C62_arc','C62_arc_nodata_refuted','C62_taudem'],'')
c('C63','proved',['C63_surface_area','C63_plane','C63_level'],'over the real numbers: rounding of doubles is not modelled; uses the axioms of the standard library of real numbers')
c('C64','proved',['C64_slope','C64_aspect','C64_nodata','C64_flat_aspect_refuted'],'over the real numbers: rounding is not modelled; the documented aspect of flat cells is refuted')
c('C65','proved',['C65_curvature','C65_peak_refuted','C65_nodata_refuted','C65_rectangular_refuted'],'over the real numbers')
c('C66','proved',['C66_indices','C66_monotone','C66_sizes','C66_nodata_refuted'],'over the real numbers; accumulation positive, slope not negative (otherwise the code takes the logarithm of a number that is not positive)')
c('C67','proved',['C67_one_big_raster','C67_setNoData_refuted','C67_same_basename_refuted','C67_sized_unusable','C67_cache_zero_undefined','C67_template_of_template'],'cells are object representations; zlib and the file system are reliable; tiles of equal size')
c('C68','proved',['C68_layout_lru','C68_template_lru','C68_bounded','C68_uninitialised_refuted'],'')
c('C69','proved',['C69_layout_opens','C69_reads_files','C69_write_kept_refuted','C69_mirrored_undefined'],'GDAL delivers the cells of each input file')
c('C70','proved',['C70_merge','C70_differing_nodata','C70_first_missing','C70_gap_refuted'],'')
c('C71','proved',['C71_saves_refuted','C71_save','C71_reusable','C71_reusable_refuted'],'C71_save and C71_reusable are about the function with the faulty argument of A2Array2D.hpp:520 left out; of the code as it is C71_saves_refuted shows that nothing is saved')
c('C72','proved',['C72_reads_the_grid','C72_rejects','C72_undefined_refuted','C72_every_text'],'the undefined cases are refutations of the property without exceptions; file streams are reliable; "/" separates directories')
c('C73','proved',['C73_round_trip','C73_names_unchanged','C73_blank_last_column_refuted'],'exact characterisation of the case in which the property fails')
c('C74','proved',['C74_base_name','C74_layout_name','C74_base_name_refuted','C74_layout_name_refuted'],'')
c('C75','proved',['C75_output_layout','C75_succeeds','C75_outputs_distinct','C75_percent_f_refuted','C75_subdirectories_refuted','C75_same_layout_refuted'],'exactly one % in the output name; retention names and flips not modelled here')
c('C76','proved',['C76_directions','C76_border','C76_any_schedule','C76_downhill','C76_no_loops','C76_east_is_no_flow_refuted','C76_right_border_refuted'],'over the real numbers: rounding is not modelled')
c('C77','proved',['C77_upslope_area','C77_received_unique','C77_shares','C77_from_elevations','C77_larger_share_refuted','C77_east_plane_refuted'],'over the real numbers; the passes of the parallel dependency loop are atomic (the race is that of C19)')
c('C78','proved',['C78_flat_directions','C78_any_schedule','C78_no_loops','C78_drains','C78_upslope_area','C78_east_outlet_refuted'],'over the real numbers; integer elevations')
c('C79','proved',['C79_array3d_is_raster','C79_addressing','C79_wrapped_memory','C79_equality','C79_equality_ignores_nodata_refuted','C79_equality_endless','C79_numDataCells','C79_numDataCells_refuted','C79_nodata_uninitialised','C79_cleared'],'every history of legal calls refines the specification raster')
c('C80','proved',['C80_every_cell_drains','C80_accumulation_complete','C80_flood_for_flowdirs','C80_southup_refuted','C80_southup'],'end-to-end composition of the fill, flat-resolution and accumulation models')
c('C81','proved',['C81_loop_check','C81_no_mark_no_loop','C81_narrow_refuted','C81_false_alarm_refuted'],'')
c('C82','proved',['C82_added_in_turn','C82_balance_exists','C82_rounding_error','C82_rounding_error_size','C82_single_receiver_exact','C82_counts_cells','C82_beyond_2p53_refuted'],'IEEE 754 double arithmetic from Flocq; finite proportions; no statement for cells downstream of loops')
c('C83','proved',['C83_not_in_place','C83_in_place','C83_rejected','C83_exception_in_cpp','C83_end_to_end'],'numpy and pybind11 modelled by their documented meaning')
c('C84','proved',['C84_no_weights','C84_terrain_attribute','C84_flow_proportions','C84_weights','C84_in_place_false_refuted','C84_weights_type','C84_end_to_end'],'that in_place=False preserves the weights is refuted; end to end for D8 and Quinn')
c('C85','proved',['C85_contiguous','C85_views','C85_in_place_not_contiguous','C85_copy_is_safe','C85_reading_not_contiguous','C85_weights_not_contiguous'],'the freed temporary is a consequence of array_t::ensure and the lifetime of buf')
c('C86','proved',['C86_integer','C86_default_refuted','C86_integer_float','C86_int32_refuted','C86_float32','C86_float64','C86_float64_refuted','C86_nan','C86_attribute'],'the overload chosen by pybind11 is part of the model: float for Python floats, integers first for Python ints')
c('C87','proved',['C87_unknown_method','C87_unknown_attribute','C87_help_refuted','C87_array_geotransform','C87_perlin_refuted','C87_cli_filling','C87_cli_breaching_refuted','C87_cli_results'],'three documented claims are refuted')
c('C88','proved',['C88_removes_nothing','C88_slopes_inwards','C88_epsilon_refuted','C88_ieee'],'the documented behaviour is refuted; C88_ieee justifies the integer arithmetic of the model for values below 2^52')
c('C89','proved',['C89_new_labels','C89_hierarchy_call','C89_types','C89_merge_call','C89_hierarchy','C89_water','C89_water_not_reported_refuted'],'the documented update of deps is refuted')
c('C90','proved',['C90_window','C90_rest_refuted','C90_exact','C90_deferred','C90_round_trip','C90_history','C90_metadata_refuted','C90_georeference','C90_nodata_range','C90_types','C90_padding','C90_save_padding_refuted'],'GDAL by its documented meaning; "rest of the raster", passing on of metadata and removal of padding are refuted')
c('C91','proved',['C91_round_trip','C91_exact_iff','C91_round_trip_refuted','C91_save_raises_refuted','C91_save_succeeds','C91_load','C91_exchange','C91_nodata','C91_nodata_refuted'],'exact round trip, saving of any rdarray and stability of NoData in general are refuted')
c('C92','proved',['C92_terrain','C92_resolution','C92_range','C92_unit_range_refuted'],'heights in [0,1] refuted by a permutation')
c('C93','proved',['C93_size','C93_files','C93_largest','C93_border_refuted','C93_rejects'],'the claim "largest square" is refuted for layouts with tiles only in the last row or column')
c('C94','proved',['C94_report','C94_accepted','C94_paths','C94_absolute_refuted','C94_crlf_refuted'],'agreement with the reader refuted for absolute names and Windows line ends')
c('C95','proved',['C95_route','C95_no_data','C95_stoi','C95_no_data_refuted','C95_geotransform','C95_projection','C95_display_refuted','C95_expand','C95_compare','C95_compare_equal','C95_compare_refuted','C95_hist'],'setting NoData to values that are not integers of the type, the display modes, and comparisons of different sizes or types are refuted')
c('C96','proved',['C96_centre','C96_range','C96_refused','C96_outside_refuted','C96_display'],'windows beyond the raster and sideways flips are refuted')
c('C97','proved',['C97_rank','C97_flood','C97_has','C97_mask','C97_together','C97_stoul','C97_limit_refuted','C97_route'],'the limit on the command line is refuted to be the number given')
c('C98','proved',['C98_d8','C98_unknown_refuted','C98_args'],'that unknown algorithms are refused is refuted; algorithms 2 to 6 of the program are parameters')
c('C99','proved',['C99_complete','C99_has','C99_selective','C99_max_depth_refuted','C99_words'],'the documented range of the depth limit is refuted; the other modes of the program (gradients, constrained breaching, selective breaching of signed or floating point numbers) are a parameter; the algorithm in them: C50, C51')
C.sort(key=lambda d:d['property'])
json.dump(dict(claims=C),open('/verif/MANIFEST.json','w'),indent=1)
