# id -> (status, theorems, note). Read by gen_docs.py.
S = {}
S["C12"] = ("proved", ["C12_index_tables_tile"], "")
S["C13"] = ("proved", ["C13_reverse_index_is_complement"], "")
S["C14"] = ("proved", ["C14_cumsum_restarts"], "Rational sums; float rounding is not modelled.")
S["C15"] = ("proved", ["C15_window_exact", "C15_window_reads_past_end"],
            "argsort is any permutation that sorts. The second theorem gives the exact condition of the read past the end of the centre array.")
S["C16"] = ("proved", ["C16_wrap_canonical", "C16_wrap_idempotent", "C16_cut_draws_same_segments"],
            "Exact arithmetic. The cut variant needs steps below 360 degrees.")
S["C17"] = ("proved", ["C17_split_line_exact"], "")
S["C18"] = ("proved", ["C18_flatten_content", "C18_flatten_writes_past_end"],
            "The second theorem is a defect of the code: one store past the end of the output buffer.")
S["C19"] = ("proved", ["C19_run_lengths"], "")
S["C66"] = ("proved", ["C66_simplify_keeps_far_points", "C66_single_last_point_lost_refuted"],
            "The statement excludes the case of a single valid point in last position, refuted by the second theorem.")
S["C01"] = ("proved", ["C01_association_one_to_one"], "Costs are exact rationals; a masked cell is None.")
S["C02"] = ("proved", ["C02_association_greedy"], "tracking returns None at the iteration cap, so the theorem also shows the cap is never reached.")
S["C11"] = ("proved", ["C11_chelton_links"], "Exact set of returned links, including the first step (one link per origin) and ties.")
S["C67"] = ("proved", ["C67_order_independent", "C67_symmetric", "C67_ties_depend_on_order_refuted"], "The third theorem shows why distinct costs are required.")
S["C68"] = ("proved", ["C68_overlap_links"], "The computation of overlaps itself is outside (see C57).")
S["C03"] = ("proved", ["C03_track_numbers", "C03_solver_is_one_to_one"],
            "The association is any function returning one-to-one links; the second theorem shows the actual solver is one.")
S["C04"] = ("proved", ["C04_virtual_memory", "C04_refuted"], "The second theorem is the counterexample at nb_virtual = 128 (signed byte).")
S["C05"] = ("proved", ["C05_length_is_time_span"], "")
S["C06"] = ("proved", ["C06_merge_rows"], "Also gives the row of each association cost.")
S["C07"] = ("proved", ["C07_unused_is_complement"], "")
S["C08"] = ("proved", ["C08_selections_partition", "C08_selection_keeps_tracks"], "")
S["C09"] = ("proved", ["C09_resume_equals_full_run", "C09_early_stop_refuted"],
            "The netCDF encoding is taken as faithful. previous2_obs is not compared: the next step discards it.")
S["C10"] = ("proved", ["C10_join", "C10_refuted"], "The second theorem shows what happens outside the stated conditions.")
S["C21"] = ("proved", ["C21_index_tables", "C21_selected_tracks", "C21_not_grouped_refuted"], "Also for tracks grouped but not sorted. The third theorem shows why they must be grouped.")
S["C22"] = ("proved", ["C22_plain", "C22_full_path", "C22_remove_incomplete"], "Includes reject_virtual, which the code applies only with full_path.")
S["C23"] = ("proved", ["C23_compressed_numbers"], "")
S["C24"] = ("proved", ["C24_concatenation", "C24_empty_refuted"], "The second theorem: an empty dataset makes the call fail.")
S["C25"] = ("proved", ["C25_length_bounds", "C25_bad_bounds", "C25_partition"], "")
S["C26"] = ("proved", ["C26_distance_to_next", "C26_distance_exact", "C26_refuted"], "The second theorem gives the exact result for any numbering, with the steps lost by the code.")
S["C27"] = ("proved", ["C27_median_window", "C27_median"], "The first theorem holds for any function in place of the median.")
S["C28"] = ("proved", ["C28_loess_weighted_mean", "C28_loess_bounds"], "Exact arithmetic.")
S["C50"] = ("proved", ["C50_period"], "Dates are integers. The same code is in the network class.")
S["C69"] = ("proved", ["C69_merge_keeps_tracks_apart", "C69_unsorted_refuted"], "")
S["C70"] = ("proved", ["C70_normalized_longitude", "C70_normalized_field"], "Exact arithmetic.")
S["C71"] = ("proved", ["C71_toward_direction", "C71_west_span_refuted", "C71_direction_latitude", "C71_direction_longitude", "C71_single_refuted"], "Exact arithmetic.")
S["C72"] = ("proved", ["C72_first_in_box"], "")
S["C73"] = ("proved", ["C73_lifetime", "C73_count_by_track"], "")
S["C36"] = ("proved", ["C36_groups_are_components", "C36_group_observations", "C36_translator_order"], "The geometric comparison of two dates is any function returning index lists (see C56, C57).")
S["C43"] = ("proved", ["C43_unique_ids", "C43_new_numbering", "C43_unsorted_refuted"], "")
S["C44"] = ("proved", ["C44_next_index_stable_sort", "C44_build_dataset"], "")
S["C30"] = ("proved", ["C30_iter_on_bins", "C30_iter_on_default", "C30_sorted_outside_refuted", "C30_unsorted_outside_refuted", "C30_unsigned_refuted"], "Values and bins are rationals; numpy's argsort is any function that sorts.")
S["C32"] = ("proved", ["C32_merge_filters", "C32_two_slices_refuted", "C32_negative_index_refuted"], "Slices with a step are not modelled.")
S["C33"] = ("proved", ["C33_insert", "C33_outside_refuted"], "")
S["C34"] = ("proved", ["C34_grid_box_stat", "C34_cells", "C34_box_statistic", "C34_own_cell_refuted"], "The claim of the documentation is refuted; the theorem says exactly what is stored.")
S["C35"] = ("proved", ["C35_digitize"], "")
S["C37"] = ("proved", ["C37_sort", "C37_from_split_network", "C37_not_stable_refuted"], "Keys of the sort are among network, segment and time.")
S["C38"] = ("proved", ["C38_extract_with_mask", "C38_extract_with_slice"], "Slices with positive bounds and step 1.")
S["C39"] = ("proved", ["C39_find_link", "C39_both_from_one", "C39_both_from_several_refuted"], "")
S["C40"] = ("proved", ["C40_relatives", "C40_relative_order", "C40_order_limit_refuted"], "")
S["C41"] = ("proved", ["C41_dissociate", "C41_segments_kept"], "")
S["C42"] = ("proved", ["C42_remove_dead_end", "C42_no_link_to_removed", "C42_mask_lost_refuted"], "The costs of the links are not modelled; times are integers.")
S["C45"] = ("proved", ["C45_follow", "C45_close_events", "C45_event_without_main_refuted"], "mask_follow_obs and mask_obs_close_event with the events they are computed from. The main path of an event must exist (the missing case is the refuted one).")
S["C74"] = ("proved", ["C74_merging", "C74_splitting", "C74_births", "C74_deaths", "C74_trash", "C74_no_row_before_refuted", "C74_lonely_first_refuted"], "Indices given by the functions; extract_event (C38) copies the rows.")
S["C75"] = ("proved", ["C75_networks", "C75_segments", "C75_outside_refuted"], "")
S["C76"] = ("proved", ["C76_longer_than", "C76_remove_trash", "C76_trash_refuted"], "")
S["C77"] = ("proved", ["C77_fix_links", "C77_ends_refuted"], "")
S["C46"] = ("proved", ["C46_same_position", "C46_sizes_refuted"], "same_position with the items built as identify_in builds them for one size; the grouping of items by size is align_on (C31), with its defects.")
S["C47"] = ("proved", ["C47_transparent", "C47_bounded", "C47_one_request", "C47_first_in_first_out", "C47_negative_size_refuted", "C47_second_object_refuted"], "Files do not change during the run; requests given a dataset object are passed through and not modelled.")
S["C29"] = ("proved", ["C29_group", "C29_one_per_date", "C29_split_network", "C29_timestep", "C29_dates_refuted"], "the overlap of two contours, the bounding box test and the rounding to the precision of the array are parameters; the cost is assumed positive or null and the rounding monotone, idempotent and positive")
S["C78"] = ("proved", ["C78_links", "C78_network"], "dates of the rows are integers ordered as the dates of the groups; argsort is any permutation sorted by group, segment and date")
S["C48"] = ("proved", ["C48_insert_virtual", "C48_links", "C48_track_refuted", "C48_flags_refuted", "C48_segments_refuted", "C48_links_refuted"], "dates and values are exact rationals; fields which are not interpolated are given separately")
S["C49"] = ("proved", ["C49_targets", "C49_step", "C49_matrix", "C49_matrix_refuted", "C49_merge"], "counts and percentages are exact; integer parts as stored in the 8 bits arrays")
S["C79"] = ("proved", ["C79_keep_tracks", "C79_unsorted_refuted", "C79_empty_refuted"], "dates compared exactly; argsort is any function which sorts")
S["C80"] = ("proved", ["C80_atlas", "C80_step", "C80_last_date_refuted"], "the advection of particles and contours is a parameter; dates are integers; the hypothesis on the step is met by the model of particle_candidate_step (C80_step)")
S["C51"] = ("proved", ["C51_outside_box", "C51_inside_in_box"], "coordinates are exact rationals")
S["C52"] = ("proved", ["C52_first_vertex", "C52_closing_copies", "C52_reduced", "C52_translated", "C52_all_equal_refuted"], "coordinates are exact rationals")
S["C53"] = ("proved", ["C53_area", "C53_copies", "C53_invariant", "C53_moved", "C53_open_refuted"], "coordinates are exact rationals")
S["C54"] = ("proved", ["C54_simplified", "C54_size", "C54_small_size_refuted"], "the heap is a multiset from which a smallest tuple is taken; coordinates are exact rationals")
S["C55"] = ("proved", ["C55_first_contour", "C55_inside", "C55_wide_refuted", "C55_no_particle_refuted"], "argsort is any function which sorts; unsigned integers are unbounded, latitudes below -90 are out of the theorem; coordinates are exact rationals")
S["C56"] = ("proved", ["C56_pairs", "C56_common_point", "C56_wrapped", "C56_wide_refuted"], "coordinates are exact rationals")
S["C57"] = ("proved", ["C57_range", "C57_threshold", "C57_kept", "C57_symmetric", "C57_union_below", "C57_full", "C57_p1_refuted"], "the areas come from the library Polygon and are parameters")
S["C81"] = ("proved", ["C81_triangle", "C81_triangles", "C81_reversed", "C81_one_side", "C81_separated", "C81_boundary_refuted"], "coordinates are exact rationals")
S["C82"] = ("proved", ["C82_close"], "coordinates are exact rationals")
S["C83"] = ("proved", ["C83_mesh", "C83_ends"], "coordinates are exact rationals: the lattice is not exact in floating point")
S["C84"] = ("proved", ["C84_contained", "C84_wide_refuted", "C84_crossing_refuted"], "coordinates are exact rationals")
S["C85"] = ("proved", ["C85_turns", "C85_refuted"], "coordinates are exact rationals")
S["C64"] = ("proved", ["C64_values", "C64_needs_two", "C64_regular", "C64_above_lower", "C64_below_upper", "C64_increase", "C64_refuted"], "coordinates are exact rationals")
S["C59"] = ("proved", ["C59_total", "C59_masked", "C59_centred", "C59_exact", "C59_one_sided", "C59_neighbours", "C59_border_refuted", "C59_both_masked_refuted"], "exact rationals; the factor of each line (from the cosine of the latitude) is a parameter")
S["C60"] = ("proved", ["C60_path", "C60_shortest", "C60_straight", "C60_many", "C60_nearest", "C60_ground"], "exact rationals: in floating point a diagonal path can be truncated one pixel short")
S["C58"] = ("proved", ["C58_euler", "C58_rk4", "C58_two_dates_euler", "C58_two_dates_rk4", "C58_alone", "C58_alone_euler", "C58_compose", "C58_node", "C58_turn", "C58_bounds", "C58_bounds_two_dates", "C58_uniform", "C58_stays", "C58_same_dates", "C58_handled", "C58_south_refuted", "C58_mark_refuted"], "exact rationals; velocities are already degrees per step (uv_for_advection is not modelled); particles more than a whole grid south of the first row are excluded (index error or memory error in the code)")
S["C62"] = ("proved", ["C62_weights", "C62_between", "C62_range", "C62_total", "C62_refuted", "C62_interp", "C62_interp_refuted"], "exact rationals; loading of the grids is not modelled")
S["C20"] = ("proved", ["C20_alone", "C20_between", "C20_exact", "C20_turn", "C20_missing", "C20_nearest"], "exact rationals; points of one cell far out of the grid, (-100000000, -10000000), are excluded: corners not set are read there when it is the first point")
S["C86"] = ("proved", ["C86_slots", "C86_zero_refuted"], "positions are those given by the advection (C58)")
S["C63"] = ("proved", ["C63_regional", "C63_around", "C63_turns", "C63_south_refuted", "C63_west_refuted", "C63_other_turn_refuted", "C63_wide_refuted"], "coordinates are exact rationals; irregular grids are not modelled")
S["C87"] = ("proved", ["C87_count", "C87_south_refuted"], "counts are unbounded integers (u4 in the code); contours less than 90 degrees away from their eddy around the earth")
S["C88"] = ("proved", ["C88_statistics", "C88_masked_refuted", "C88_empty_refuted"], "values are exact rationals")
S["C65"] = ("proved", ["C65_families", "C65_partition", "C65_pairs", "C65_symmetric", "C65_thresholds_refuted"], "scores are exact rationals; the printed tables and files are not modelled")
S["C61"] = ("proved", ["C61_disjoint", "C61_criteria", "C61_once", "C61_profile", "C61_complete", "C61_levels"], "contours, pixel search, circle fit, mean speed and nearest contour are parameters; filters of the field, the resampling of the stored contours and the final wrap of longitudes are not modelled")
S["C89"] = ("proved", ["C89_refused", "C89_amplitude", "C89_few", "C89_plateau_refuted", "C89_corner_refuted"], "heights are exact rationals below 2e10; the window of the contour is a parameter which holds its pixels")
S["C90"] = ("proved", ["C90_centres", "C90_increasing", "C90_bounds", "C90_circular", "C90_circular_centres", "C90_turn", "C90_tolerance_refuted", "C90_strict_refuted", "C90_bounds_refuted"], "coordinates are exact rationals; one axis at a time")
S["C91"] = ("proved", ["C91_kept", "C91_built", "C91_tables", "C91_nearest", "C91_nearest_first", "C91_outside_refuted", "C91_empty_refuted"], "coordinates are exact rationals, indices unbounded; what matplotlib draws is any list of contours")
S["C92"] = ("proved", ["C92_joined", "C92_unchanged", "C92_cut_once", "C92_lost_refuted"], "coordinates are exact rationals; the limit of Python on nested calls is not modelled")
S["C93"] = ("proved", ["C93_kept", "C93_closed", "C93_none", "C93_times", "C93_refuted"], "times are integers; the number of days is an integer")
S["C94"] = ("proved", ["C94_kept", "C94_times", "C94_swapped", "C94_same_row_refuted", "C94_last_row_refuted"], "times are integers and costs exact rationals; the sort of event times is any sort")
S["C95"] = ("proved", ["C95_area", "C95_turn", "C95_cut", "C95_edge_refuted", "C95_inverted_refuted"], "coordinates are exact rationals, not nan")
S["C96"] = ("proved", ["C96_sub_sample", "C96_first_last", "C96_cut_track_refuted", "C96_empty_refuted"], "times are exact rationals")
S["C97"] = ("proved", ["C97_polygons", "C97_all_inside_refuted", "C97_contains"], "coordinates are exact rationals")
S["C98"] = ("proved", ["C98_count", "C98_mean", "C98_percent", "C98_total", "C98_default_bins", "C98_bins_mean", "C98_std_refuted", "C98_empty_refuted"], "values are exact rationals; the histogram of numpy is specified, not transcribed")
S["C99"] = ("proved", ["C99_mean", "C99_constant", "C99_bounds", "C99_turn", "C99_high_low", "C99_wide_refuted", "C99_column_refuted", "C99_nan_refuted"], "values and weights are exact rationals; filter2D is specified as a correlation")
S["C100"] = ("proved", ["C100_mirror", "C100_empty", "C100_centred", "C100_shift_refuted"], "weights are exact rationals; the formulas of the weights are not modelled")
S["C101"] = ("proved", ["C101_first", "C101_kept", "C101_indices_refuted", "C101_written", "C101_copy", "C101_copy_refuted", "C101_add_refuted", "C101_clean", "C101_height"], "arrays and their transposition are parameters; attributes of variables are not modelled")
S["C102"] = ("proved", ["C102_item", "C102_shift", "C102_last_refuted", "C102_reset", "C102_path", "C102_units_refuted"], "the advection itself is C58 and C62")
S["C90"] = ("proved", ["C90_centres", "C90_increasing", "C90_bounds", "C90_circular", "C90_circular_centres", "C90_turn", "C90_columns", "C90_tolerance_refuted", "C90_strict_refuted", "C90_bounds_refuted"], "coordinates are exact rationals; one axis at a time")
S["C103"] = ("proved", ["C103_networks", "C103_below_refuted", "C103_segments"], "columns of nonnegative integers")
S["C104"] = ("proved", ["C104_tables", "C104_numbering", "C104_stale", "C104_stale_refuted"], "the network is its columns track and segment; a sort is given by its permutation")
S["C105"] = ("proved", ["C105_same", "C105_value", "C105_list", "C105_segments"], "the method is a parameter; fields of one value for each row")
S["C106"] = ("proved", ["C106_subset", "C106_dead_end_refuted", "C106_trash_refuted"], "numbers asked for are between the lowest and the highest network of the file; the plot of the period is not modelled")
S["C107"] = ("proved", ["C107_walk", "C107_selected"], "nearest contour, containment, pixels and mean speed are parameters (modelled in other files)")
S["C108"] = ("proved", ["C108_anticyclonic", "C108_cyclonic", "C108_cyclonic_refuted"], "containment of an eddy in a contour is a parameter")
S["C109"] = ("proved", ["C109_match", "C109_rows", "C109_method", "C109_default_refuted"], "areas of intersections (library Polygon) are a parameter; re_reference_index of a mask gives booleans and is not modelled")
S["C110"] = ("proved", ["C110_tracks", "C110_apart", "C110_twice_refuted", "C110_before_refuted", "C110_no_day_refuted"], "close_network has the same loop but builds its bins with range() on dates which are floats, so it fails before it; it is not modelled further")
S["C111"] = ("proved", ["C111_zarr", "C111_zarr_all", "C111_netcdf", "C111_netcdf_all", "C111_open", "C111_step", "C111_negative_refuted", "C111_store"], "one column; the conversion of a row is a parameter; opening of files, compression and versions are not modelled")
S["C112"] = ("proved", ["C112_nearest", "C112_again", "C112_order", "C112_raw", "C112_unpacked", "C112_raw_units_refuted"], "exact arithmetic: the rounding of floats is not modelled; a value which does not fit in the integer type is an error of the model")
S["C113"] = ("proved", ["C113_sign", "C113_column", "C113_unknown_refuted"], "other attributes are not modelled")
S["C114"] = ("proved", ["C114_remove", "C114_add", "C114_remove_add_refuted", "C114_concatenate", "C114_concatenate_refuted", "C114_merge", "C114_copy", "C114_load"], "types of the columns are not modelled; numbers of tracks of a merge are in C69")
S["C115"] = ("proved", ["C115_coherence", "C115_one_date_refuted", "C115_null_refuted"], "the movement by a pair of fields, the creation of particles and the search of the eddy around a point are parameters (C55, C58, C62 and C83 treat them)")
S["C116"] = ("proved", ["C116_following", "C116_fits", "C116_networks_refuted", "C116_events"], "the percentile itself is not modelled: the theorem gives the list of values it is applied to")
S["C117"] = ("proved", ["C117_columns", "C117_run", "C117_straight", "C117_turn"], "exact arithmetic; elements other than positions, date and contours are one value by row")
S["C118"] = ("proved", ["C118_region", "C118_extent", "C118_turns", "C118_reach", "C118_mask", "C118_defined", "C118_links", "C118_null_refuted"], "exact arithmetic; the distance and the mask of the ground are parameters")
S["C119"] = ("proved", ["C119_files", "C119_outputs", "C119_no_short_track_refuted"], "a run without previous correspondences; the filling of virtual observations is C48")
S["C120"] = ("proved", ["C120_best", "C120_unique", "C120_methods", "C120_exact", "C120_moves", "C120_inside", "C120_formula_refuted", "C120_centre_refuted"], "on exact real numbers; uses the three axioms of the real numbers of the standard library (sig_forall_dec, sig_not_dec, functional_extensionality_dep)")
S["C121"] = ("proved", ["C121_size", "C121_points", "C121_vertices", "C121_ends", "C121_regular", "C121_single", "C121_mean", "C121_profile"], "")
S["C122"] = ("proved", ["C122_great_circle", "C122_metric", "C122_turns", "C122_matrix", "C122_matrix_cells", "C122_local_norm", "C122_back", "C122_forth", "C122_pole_refuted", "C122_circle"], "on exact real numbers; uses the axioms of the real numbers of the standard library (sig_forall_dec, sig_not_dec, functional_extensionality_dep, classic)")
S["C123"] = ("proved", ["C123_shift", "C123_fit", "C123_equal_area", "C123_exact", "C123_cache"], "on exact real numbers; uses the axioms of the real numbers of the standard library (sig_forall_dec, sig_not_dec, functional_extensionality_dep, classic); the solver of numpy is a parameter")
S["C124"] = ("proved", ["C124_vertices", "C124_convex", "C124_clockwise_refuted", "C124_hollow_refuted", "C124_tested_refuted"], "coordinates are exact rationals; the claim that the result is convex is refuted (C124_hollow_refuted)")
S["C125"] = ("proved", ["C125_kernels", "C125_defined", "C125_loess", "C125_lanczos", "C125_mirror"], "on exact real numbers; uses the axioms of the real numbers of the standard library (sig_forall_dec, sig_not_dec, functional_extensionality_dep, classic); j1 of scipy is a parameter; orders below 1 are not modelled")
S["C126"] = ("proved", ["C126_exact", "C126_origin_refuted", "C126_straight_refuted"], "on exact real numbers; uses the axioms of the real numbers of the standard library (sig_forall_dec, sig_not_dec, functional_extensionality_dep, classic); points exactly on an ellipse; for other points only the formulas are modelled")
S["C127"] = ("proved", ["C127_tracks", "C127_kept", "C127_stale_refuted", "C127_empty_refuted", "C127_age"], "exact rationals for the age; rows of the same fields")
S["C128"] = ("proved", ["C128_cost", "C128_seam_refuted", "C128_overlap", "C128_merge", "C128_shapes"], "exact rationals; areas, intersections and unions of the library Polygon are parameters with the usual laws of areas; costs stored with 32 bits are not modelled")
S["C129"] = ("proved", ["C129_azimuth", "C129_directions", "C129_sign_refuted"], "real numbers of the standard library (axioms listed in DESIGN.md)")
S["C130"] = ("proved", ["C130_latitude", "C130_longitude", "C130_wrap", "C130_slope", "C130_width_refuted"], "real numbers of the standard library (axioms listed in DESIGN.md)")
S["C131"] = ("proved", ["C131_written", "C131_read_back", "C131_zarr_refuted", "C131_default"], "names only (no handlers, no members of archives); conversions other than %(key)s and %% are not modelled")
S["C132"] = ("proved", ["C132_regrid", "C132_land", "C132_written", "C132_new_name_refuted"], "interpolation is a parameter, exact rationals; coordinate variables and shapes of arrays are not modelled")
S["C133"] = ("proved", ["C133_identified", "C133_error", "C133_refuted", "C133_greatest_refuted"], "labels stand for networks or unique numbers of segments; equality of floats is equality of integers (no nan)")
S["C23"] = ("proved", ["C23_compressed_numbers", "C23_stored_refuted", "C23_longer", "C23_longer_refuted"], "the attribute hides the field because the class of groups has no __slots__")
S["C134"] = ("proved", ["C134_date", "C134_date_time", "C134_read", "C134_eight", "C134_six", "C134_month_refuted", "C134_hours_refuted", "C134_minutes_refuted"], "a text is digits, T, spaces and other characters; the expressions are those of the standard library of python 3 for these directives")
S["C135"] = ("proved", ["C135_read", "C135_date", "C135_hours_refuted", "C135_directory_refuted", "C135_letter_refuted"], "paths of printable characters without quote and of at most 500 bytes; a date not written in numpy's empty array is the value Unset")
S["C136"] = ("proved", ["C136_numbers", "C136_error", "C136_segments_refuted"], "the checks of next and previous observations, only printed, are not modelled")
S["C137"] = ("proved", ["C137_tracks", "C137_segments", "C137_cut_refuted", "C137_place_refuted"], "exact rationals")
S["C138"] = ("proved", ["C138_relatives", "C138_other_network_refuted"], "")
S["C139"] = ("proved", ["C139_first_come", "C139_first_come_unique", "C139_order_refuted", "C139_empty"], "")
S["C31"] = ("proved", ["C31_align_on", "C31_all_ref_end_refuted", "C31_all_ref_sorted_refuted", "C31_other_outside"], "Common bins given; with the default bins each dataset has its own origin.")
S["C140"] = ("proved", ["C140_in_step", "C140_play", "C140_window", "C140_width_refuted", "C140_first_day", "C140_left", "C140_left_gap_refuted", "C140_left_no_color_refuted", "C140_film"], "")
S["C141"] = ("proved", ["C141_shown", "C141_pan", "C141_total", "C141_period", "C141_dates", "C141_texts", "C141_texts_drawn", "C141_pointed", "C141_pointed_50_refuted", "C141_infos", "C141_note", "C141_pan_stale_refuted", "C141_note_refuted", "C141_pointed_refuted", "C141_old_dates_refuted"], "")
S["C142"] = ("proved", ["C142_files", "C142_percents", "C142_same_folder_refuted", "C142_percent_refuted"], "")
S["C143"] = ("proved", ["C143_corners", "C143_value", "C143_one_box", "C143_pole_refuted"], "")
S["C144"] = ("proved", ["C144_networks"], "")
S["C145"] = ("proved", ["C145_spectra", "C145_area", "C145_ratio", "C145_hole", "C145_self", "C145_scaling_refuted", "C145_mask_refuted", "C145_reference_refuted"], "")
S["C146"] = ("proved", ["C146_round_trip", "C146_join_refuted", "C146_empty_step", "C146_join_save", "C146_width"], "")
S["C147"] = ("proved", ["C147_height", "C147_name_refuted", "C147_one_speed", "C147_unregular", "C147_options", "C147_indexs"], "")
S["C148"] = ("proved", ["C148_same_links", "C148_exact", "C148_row", "C148_resume_refuted"], "")
S["C149"] = ("proved", ["C149_settings", "C149_directory", "C149_compatible", "C149_written", "C149_kept", "C149_continued", "C149_options_refuted", "C149_files_refuted"], "")
S["C150"] = ("proved", ["C150_events", "C150_array_refuted", "C150_colors", "C150_segments", "C150_several"], "styles of the lines and the conversion of the dates to datetime64 are not modelled")
S["C151"] = ("proved", ["C151_merge", "C151_different", "C151_empty", "C151_values", "C151_tracks_refuted", "C151_missing_refuted", "C151_packing_refuted", "C151_rotation_refuted"], "types of the columns are not modelled; netcdf files")
S["C152"] = ("proved", ["C152_names", "C152_access", "C152_no_name", "C152_hasattr_refuted", "C152_load", "C152_loads", "C152_fails", "C152_round_trip", "C152_include_refuted", "C152_dates_refuted"], "packing, slices and the rotation are in other properties")
S["C153"] = ("proved", ["C153_counts", "C153_distances", "C153_gap_refuted", "C153_raises_refuted"], "the distributions are histograms (C98); areas and layout are not modelled")
S["C154"] = ("proved", ["C154_isolation", "C154_append", "C154_shared_refuted", "C154_copy", "C154_period", "C154_period_kept", "C154_period_stale_refuted", "C154_equal", "C154_equal_copy"], "insertion at the end only (elsewhere: C33); the datasets have the same fields")
S["C155"] = ("proved", ["C155_band", "C155_constant", "C155_level", "C155_defined"], "the kernels are parameters; a grid with a nan after the first filter is not followed; values are exact rationals")
S["C156"] = ("proved", ["C156_counts", "C156_displayed", "C156_rates", "C156_trash_refuted", "C156_empty_refuted"], "the events are counted by C74; layout and rounding are not modelled")
S["C157"] = ("proved", ["C157_written", "C157_kept", "C157_accepted", "C157_refused_refuted"], "the packing of the values is C33 and following; the compression and the other attributes are not modelled")
S["C158"] = ("proved", ["C158_selection", "C158_independent", "C158_copied", "C158_split"], "what a selection keeps is proved with the other properties of the correspondences")
S["C159"] = ("proved", ["C159_read_back", "C159_short_name_refuted", "C159_unlisted"], "the packing of the values is not modelled here; a name stands for a field and for its variable")
