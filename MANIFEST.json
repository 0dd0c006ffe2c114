{
 "claims": [
  {
   "property": "C01",
   "status": "proved",
   "theorems": [
    "C01_association_one_to_one"
   ],
   "note": "Costs are exact rationals; a masked cell is None."
  },
  {
   "property": "C02",
   "status": "proved",
   "theorems": [
    "C02_association_greedy"
   ],
   "note": "tracking returns None at the iteration cap, so the theorem also shows the cap is never reached."
  },
  {
   "property": "C03",
   "status": "proved",
   "theorems": [
    "C03_track_numbers",
    "C03_solver_is_one_to_one"
   ],
   "note": "The association is any function returning one-to-one links; the second theorem shows the actual solver is one."
  },
  {
   "property": "C04",
   "status": "proved",
   "theorems": [
    "C04_virtual_memory",
    "C04_refuted"
   ],
   "note": "The second theorem is the counterexample at nb_virtual = 128 (signed byte)."
  },
  {
   "property": "C05",
   "status": "proved",
   "theorems": [
    "C05_length_is_time_span"
   ],
   "note": ""
  },
  {
   "property": "C06",
   "status": "proved",
   "theorems": [
    "C06_merge_rows"
   ],
   "note": "Also gives the row of each association cost."
  },
  {
   "property": "C07",
   "status": "proved",
   "theorems": [
    "C07_unused_is_complement"
   ],
   "note": ""
  },
  {
   "property": "C08",
   "status": "proved",
   "theorems": [
    "C08_selections_partition",
    "C08_selection_keeps_tracks"
   ],
   "note": ""
  },
  {
   "property": "C09",
   "status": "proved",
   "theorems": [
    "C09_resume_equals_full_run",
    "C09_early_stop_refuted"
   ],
   "note": "The netCDF encoding is taken as faithful. previous2_obs is not compared: the next step discards it."
  },
  {
   "property": "C10",
   "status": "proved",
   "theorems": [
    "C10_join",
    "C10_refuted"
   ],
   "note": "The second theorem shows what happens outside the stated conditions."
  },
  {
   "property": "C11",
   "status": "proved",
   "theorems": [
    "C11_chelton_links"
   ],
   "note": "Exact set of returned links, including the first step (one link per origin) and ties."
  },
  {
   "property": "C12",
   "status": "proved",
   "theorems": [
    "C12_index_tables_tile"
   ],
   "note": ""
  },
  {
   "property": "C13",
   "status": "proved",
   "theorems": [
    "C13_reverse_index_is_complement"
   ],
   "note": ""
  },
  {
   "property": "C14",
   "status": "proved",
   "theorems": [
    "C14_cumsum_restarts"
   ],
   "note": "Rational sums; float rounding is not modelled."
  },
  {
   "property": "C15",
   "status": "proved",
   "theorems": [
    "C15_window_exact",
    "C15_window_reads_past_end"
   ],
   "note": "argsort is any permutation that sorts. The second theorem gives the exact condition of the read past the end of the centre array."
  },
  {
   "property": "C16",
   "status": "proved",
   "theorems": [
    "C16_wrap_canonical",
    "C16_wrap_idempotent",
    "C16_cut_draws_same_segments"
   ],
   "note": "Exact arithmetic. The cut variant needs steps below 360 degrees."
  },
  {
   "property": "C17",
   "status": "proved",
   "theorems": [
    "C17_split_line_exact"
   ],
   "note": ""
  },
  {
   "property": "C18",
   "status": "proved",
   "theorems": [
    "C18_flatten_content",
    "C18_flatten_writes_past_end"
   ],
   "note": "The second theorem is a defect of the code: one store past the end of the output buffer."
  },
  {
   "property": "C19",
   "status": "proved",
   "theorems": [
    "C19_run_lengths"
   ],
   "note": ""
  },
  {
   "property": "C20",
   "status": "proved",
   "theorems": [
    "C20_alone",
    "C20_between",
    "C20_exact",
    "C20_turn",
    "C20_missing",
    "C20_nearest"
   ],
   "note": "exact rationals; points of one cell far out of the grid, (-100000000, -10000000), are excluded: corners not set are read there when it is the first point"
  },
  {
   "property": "C21",
   "status": "proved",
   "theorems": [
    "C21_index_tables",
    "C21_selected_tracks",
    "C21_not_grouped_refuted"
   ],
   "note": "Also for tracks grouped but not sorted. The third theorem shows why they must be grouped."
  },
  {
   "property": "C22",
   "status": "proved",
   "theorems": [
    "C22_plain",
    "C22_full_path",
    "C22_remove_incomplete"
   ],
   "note": "Includes reject_virtual, which the code applies only with full_path."
  },
  {
   "property": "C23",
   "status": "proved",
   "theorems": [
    "C23_compressed_numbers",
    "C23_stored_refuted",
    "C23_longer",
    "C23_longer_refuted"
   ],
   "note": "the attribute hides the field because the class of groups has no __slots__"
  },
  {
   "property": "C24",
   "status": "proved",
   "theorems": [
    "C24_concatenation",
    "C24_empty_refuted"
   ],
   "note": "The second theorem: an empty dataset makes the call fail."
  },
  {
   "property": "C25",
   "status": "proved",
   "theorems": [
    "C25_length_bounds",
    "C25_bad_bounds",
    "C25_partition"
   ],
   "note": ""
  },
  {
   "property": "C26",
   "status": "proved",
   "theorems": [
    "C26_distance_to_next",
    "C26_distance_exact",
    "C26_refuted"
   ],
   "note": "The second theorem gives the exact result for any numbering, with the steps lost by the code."
  },
  {
   "property": "C27",
   "status": "proved",
   "theorems": [
    "C27_median_window",
    "C27_median"
   ],
   "note": "The first theorem holds for any function in place of the median."
  },
  {
   "property": "C28",
   "status": "proved",
   "theorems": [
    "C28_loess_weighted_mean",
    "C28_loess_bounds"
   ],
   "note": "Exact arithmetic."
  },
  {
   "property": "C29",
   "status": "proved",
   "theorems": [
    "C29_group",
    "C29_one_per_date",
    "C29_split_network",
    "C29_timestep",
    "C29_dates_refuted"
   ],
   "note": "the overlap of two contours, the bounding box test and the rounding to the precision of the array are parameters; the cost is assumed positive or null and the rounding monotone, idempotent and positive"
  },
  {
   "property": "C30",
   "status": "proved",
   "theorems": [
    "C30_iter_on_bins",
    "C30_iter_on_default",
    "C30_sorted_outside_refuted",
    "C30_unsorted_outside_refuted",
    "C30_unsigned_refuted"
   ],
   "note": "Values and bins are rationals; numpy's argsort is any function that sorts."
  },
  {
   "property": "C31",
   "status": "proved",
   "theorems": [
    "C31_align_on",
    "C31_all_ref_end_refuted",
    "C31_all_ref_sorted_refuted",
    "C31_other_outside"
   ],
   "note": "Common bins given; with the default bins each dataset has its own origin."
  },
  {
   "property": "C32",
   "status": "proved",
   "theorems": [
    "C32_merge_filters",
    "C32_two_slices_refuted",
    "C32_negative_index_refuted"
   ],
   "note": "Slices with a step are not modelled."
  },
  {
   "property": "C33",
   "status": "proved",
   "theorems": [
    "C33_insert",
    "C33_outside_refuted"
   ],
   "note": ""
  },
  {
   "property": "C34",
   "status": "proved",
   "theorems": [
    "C34_grid_box_stat",
    "C34_cells",
    "C34_box_statistic",
    "C34_own_cell_refuted"
   ],
   "note": "The claim of the documentation is refuted; the theorem says exactly what is stored."
  },
  {
   "property": "C35",
   "status": "proved",
   "theorems": [
    "C35_digitize"
   ],
   "note": ""
  },
  {
   "property": "C36",
   "status": "proved",
   "theorems": [
    "C36_groups_are_components",
    "C36_group_observations",
    "C36_translator_order"
   ],
   "note": "The geometric comparison of two dates is any function returning index lists (see C56, C57)."
  },
  {
   "property": "C37",
   "status": "proved",
   "theorems": [
    "C37_sort",
    "C37_from_split_network",
    "C37_not_stable_refuted"
   ],
   "note": "Keys of the sort are among network, segment and time."
  },
  {
   "property": "C38",
   "status": "proved",
   "theorems": [
    "C38_extract_with_mask",
    "C38_extract_with_slice"
   ],
   "note": "Slices with positive bounds and step 1."
  },
  {
   "property": "C39",
   "status": "proved",
   "theorems": [
    "C39_find_link",
    "C39_both_from_one",
    "C39_both_from_several_refuted"
   ],
   "note": ""
  },
  {
   "property": "C40",
   "status": "proved",
   "theorems": [
    "C40_relatives",
    "C40_relative_order",
    "C40_order_limit_refuted"
   ],
   "note": ""
  },
  {
   "property": "C41",
   "status": "proved",
   "theorems": [
    "C41_dissociate",
    "C41_segments_kept"
   ],
   "note": ""
  },
  {
   "property": "C42",
   "status": "proved",
   "theorems": [
    "C42_remove_dead_end",
    "C42_no_link_to_removed",
    "C42_mask_lost_refuted"
   ],
   "note": "The costs of the links are not modelled; times are integers."
  },
  {
   "property": "C43",
   "status": "proved",
   "theorems": [
    "C43_unique_ids",
    "C43_new_numbering",
    "C43_unsorted_refuted"
   ],
   "note": ""
  },
  {
   "property": "C44",
   "status": "proved",
   "theorems": [
    "C44_next_index_stable_sort",
    "C44_build_dataset"
   ],
   "note": ""
  },
  {
   "property": "C45",
   "status": "proved",
   "theorems": [
    "C45_follow",
    "C45_close_events",
    "C45_event_without_main_refuted"
   ],
   "note": "mask_follow_obs and mask_obs_close_event with the events they are computed from. The main path of an event must exist (the missing case is the refuted one)."
  },
  {
   "property": "C46",
   "status": "proved",
   "theorems": [
    "C46_same_position",
    "C46_sizes_refuted"
   ],
   "note": "same_position with the items built as identify_in builds them for one size; the grouping of items by size is align_on (C31), with its defects."
  },
  {
   "property": "C47",
   "status": "proved",
   "theorems": [
    "C47_transparent",
    "C47_bounded",
    "C47_one_request",
    "C47_first_in_first_out",
    "C47_negative_size_refuted",
    "C47_second_object_refuted"
   ],
   "note": "Files do not change during the run; requests given a dataset object are passed through and not modelled."
  },
  {
   "property": "C48",
   "status": "proved",
   "theorems": [
    "C48_insert_virtual",
    "C48_links",
    "C48_track_refuted",
    "C48_flags_refuted",
    "C48_segments_refuted",
    "C48_links_refuted"
   ],
   "note": "dates and values are exact rationals; fields which are not interpolated are given separately"
  },
  {
   "property": "C49",
   "status": "proved",
   "theorems": [
    "C49_targets",
    "C49_step",
    "C49_matrix",
    "C49_matrix_refuted",
    "C49_merge"
   ],
   "note": "counts and percentages are exact; integer parts as stored in the 8 bits arrays"
  },
  {
   "property": "C50",
   "status": "proved",
   "theorems": [
    "C50_period"
   ],
   "note": "Dates are integers. The same code is in the network class."
  },
  {
   "property": "C51",
   "status": "proved",
   "theorems": [
    "C51_outside_box",
    "C51_inside_in_box"
   ],
   "note": "coordinates are exact rationals"
  },
  {
   "property": "C52",
   "status": "proved",
   "theorems": [
    "C52_first_vertex",
    "C52_closing_copies",
    "C52_reduced",
    "C52_translated",
    "C52_all_equal_refuted"
   ],
   "note": "coordinates are exact rationals"
  },
  {
   "property": "C53",
   "status": "proved",
   "theorems": [
    "C53_area",
    "C53_copies",
    "C53_invariant",
    "C53_moved",
    "C53_open_refuted"
   ],
   "note": "coordinates are exact rationals"
  },
  {
   "property": "C54",
   "status": "proved",
   "theorems": [
    "C54_simplified",
    "C54_size",
    "C54_small_size_refuted"
   ],
   "note": "the heap is a multiset from which a smallest tuple is taken; coordinates are exact rationals"
  },
  {
   "property": "C55",
   "status": "proved",
   "theorems": [
    "C55_first_contour",
    "C55_inside",
    "C55_wide_refuted",
    "C55_no_particle_refuted"
   ],
   "note": "argsort is any function which sorts; unsigned integers are unbounded, latitudes below -90 are out of the theorem; coordinates are exact rationals"
  },
  {
   "property": "C56",
   "status": "proved",
   "theorems": [
    "C56_pairs",
    "C56_common_point",
    "C56_wrapped",
    "C56_wide_refuted"
   ],
   "note": "coordinates are exact rationals"
  },
  {
   "property": "C57",
   "status": "proved",
   "theorems": [
    "C57_range",
    "C57_threshold",
    "C57_kept",
    "C57_symmetric",
    "C57_union_below",
    "C57_full",
    "C57_p1_refuted"
   ],
   "note": "the areas come from the library Polygon and are parameters"
  },
  {
   "property": "C58",
   "status": "proved",
   "theorems": [
    "C58_euler",
    "C58_rk4",
    "C58_two_dates_euler",
    "C58_two_dates_rk4",
    "C58_alone",
    "C58_alone_euler",
    "C58_compose",
    "C58_node",
    "C58_turn",
    "C58_bounds",
    "C58_bounds_two_dates",
    "C58_uniform",
    "C58_stays",
    "C58_same_dates",
    "C58_handled",
    "C58_south_refuted",
    "C58_mark_refuted"
   ],
   "note": "exact rationals; velocities are already degrees per step (uv_for_advection is not modelled); particles more than a whole grid south of the first row are excluded (index error or memory error in the code)"
  },
  {
   "property": "C59",
   "status": "proved",
   "theorems": [
    "C59_total",
    "C59_masked",
    "C59_centred",
    "C59_exact",
    "C59_one_sided",
    "C59_neighbours",
    "C59_border_refuted",
    "C59_both_masked_refuted"
   ],
   "note": "exact rationals; the factor of each line (from the cosine of the latitude) is a parameter"
  },
  {
   "property": "C60",
   "status": "proved",
   "theorems": [
    "C60_path",
    "C60_shortest",
    "C60_straight",
    "C60_many",
    "C60_nearest",
    "C60_ground"
   ],
   "note": "exact rationals: in floating point a diagonal path can be truncated one pixel short"
  },
  {
   "property": "C61",
   "status": "proved",
   "theorems": [
    "C61_disjoint",
    "C61_criteria",
    "C61_once",
    "C61_profile",
    "C61_complete",
    "C61_levels"
   ],
   "note": "contours, pixel search, circle fit, mean speed and nearest contour are parameters; filters of the field, the resampling of the stored contours and the final wrap of longitudes are not modelled"
  },
  {
   "property": "C62",
   "status": "proved",
   "theorems": [
    "C62_weights",
    "C62_between",
    "C62_range",
    "C62_total",
    "C62_refuted",
    "C62_interp",
    "C62_interp_refuted"
   ],
   "note": "exact rationals; loading of the grids is not modelled"
  },
  {
   "property": "C63",
   "status": "proved",
   "theorems": [
    "C63_regional",
    "C63_around",
    "C63_turns",
    "C63_south_refuted",
    "C63_west_refuted",
    "C63_other_turn_refuted",
    "C63_wide_refuted"
   ],
   "note": "coordinates are exact rationals; irregular grids are not modelled"
  },
  {
   "property": "C64",
   "status": "proved",
   "theorems": [
    "C64_values",
    "C64_needs_two",
    "C64_regular",
    "C64_above_lower",
    "C64_below_upper",
    "C64_increase",
    "C64_refuted"
   ],
   "note": "coordinates are exact rationals"
  },
  {
   "property": "C65",
   "status": "proved",
   "theorems": [
    "C65_families",
    "C65_partition",
    "C65_pairs",
    "C65_symmetric",
    "C65_thresholds_refuted"
   ],
   "note": "scores are exact rationals; the printed tables and files are not modelled"
  },
  {
   "property": "C66",
   "status": "proved",
   "theorems": [
    "C66_simplify_keeps_far_points",
    "C66_single_last_point_lost_refuted"
   ],
   "note": "The statement excludes the case of a single valid point in last position, refuted by the second theorem."
  },
  {
   "property": "C67",
   "status": "proved",
   "theorems": [
    "C67_order_independent",
    "C67_symmetric",
    "C67_ties_depend_on_order_refuted"
   ],
   "note": "The third theorem shows why distinct costs are required."
  },
  {
   "property": "C68",
   "status": "proved",
   "theorems": [
    "C68_overlap_links"
   ],
   "note": "The computation of overlaps itself is outside (see C57)."
  },
  {
   "property": "C69",
   "status": "proved",
   "theorems": [
    "C69_merge_keeps_tracks_apart",
    "C69_unsorted_refuted"
   ],
   "note": ""
  },
  {
   "property": "C70",
   "status": "proved",
   "theorems": [
    "C70_normalized_longitude",
    "C70_normalized_field"
   ],
   "note": "Exact arithmetic."
  },
  {
   "property": "C71",
   "status": "proved",
   "theorems": [
    "C71_toward_direction",
    "C71_west_span_refuted",
    "C71_direction_latitude",
    "C71_direction_longitude",
    "C71_single_refuted"
   ],
   "note": "Exact arithmetic."
  },
  {
   "property": "C72",
   "status": "proved",
   "theorems": [
    "C72_first_in_box"
   ],
   "note": ""
  },
  {
   "property": "C73",
   "status": "proved",
   "theorems": [
    "C73_lifetime",
    "C73_count_by_track"
   ],
   "note": ""
  },
  {
   "property": "C74",
   "status": "proved",
   "theorems": [
    "C74_merging",
    "C74_splitting",
    "C74_births",
    "C74_deaths",
    "C74_trash",
    "C74_no_row_before_refuted",
    "C74_lonely_first_refuted"
   ],
   "note": "Indices given by the functions; extract_event (C38) copies the rows."
  },
  {
   "property": "C75",
   "status": "proved",
   "theorems": [
    "C75_networks",
    "C75_segments",
    "C75_outside_refuted"
   ],
   "note": ""
  },
  {
   "property": "C76",
   "status": "proved",
   "theorems": [
    "C76_longer_than",
    "C76_remove_trash",
    "C76_trash_refuted"
   ],
   "note": ""
  },
  {
   "property": "C77",
   "status": "proved",
   "theorems": [
    "C77_fix_links",
    "C77_ends_refuted"
   ],
   "note": ""
  },
  {
   "property": "C78",
   "status": "proved",
   "theorems": [
    "C78_links",
    "C78_network"
   ],
   "note": "dates of the rows are integers ordered as the dates of the groups; argsort is any permutation sorted by group, segment and date"
  },
  {
   "property": "C79",
   "status": "proved",
   "theorems": [
    "C79_keep_tracks",
    "C79_unsorted_refuted",
    "C79_empty_refuted"
   ],
   "note": "dates compared exactly; argsort is any function which sorts"
  },
  {
   "property": "C80",
   "status": "proved",
   "theorems": [
    "C80_atlas",
    "C80_step",
    "C80_last_date_refuted"
   ],
   "note": "the advection of particles and contours is a parameter; dates are integers; the hypothesis on the step is met by the model of particle_candidate_step (C80_step)"
  },
  {
   "property": "C81",
   "status": "proved",
   "theorems": [
    "C81_triangle",
    "C81_triangles",
    "C81_reversed",
    "C81_one_side",
    "C81_separated",
    "C81_boundary_refuted"
   ],
   "note": "coordinates are exact rationals"
  },
  {
   "property": "C82",
   "status": "proved",
   "theorems": [
    "C82_close"
   ],
   "note": "coordinates are exact rationals"
  },
  {
   "property": "C83",
   "status": "proved",
   "theorems": [
    "C83_mesh",
    "C83_ends"
   ],
   "note": "coordinates are exact rationals: the lattice is not exact in floating point"
  },
  {
   "property": "C84",
   "status": "proved",
   "theorems": [
    "C84_contained",
    "C84_wide_refuted",
    "C84_crossing_refuted"
   ],
   "note": "coordinates are exact rationals"
  },
  {
   "property": "C85",
   "status": "proved",
   "theorems": [
    "C85_turns",
    "C85_refuted"
   ],
   "note": "coordinates are exact rationals"
  },
  {
   "property": "C86",
   "status": "proved",
   "theorems": [
    "C86_slots",
    "C86_zero_refuted"
   ],
   "note": "positions are those given by the advection (C58)"
  },
  {
   "property": "C87",
   "status": "proved",
   "theorems": [
    "C87_count",
    "C87_south_refuted"
   ],
   "note": "counts are unbounded integers (u4 in the code); contours less than 90 degrees away from their eddy around the earth"
  },
  {
   "property": "C88",
   "status": "proved",
   "theorems": [
    "C88_statistics",
    "C88_masked_refuted",
    "C88_empty_refuted"
   ],
   "note": "values are exact rationals"
  },
  {
   "property": "C89",
   "status": "proved",
   "theorems": [
    "C89_refused",
    "C89_amplitude",
    "C89_few",
    "C89_plateau_refuted",
    "C89_corner_refuted"
   ],
   "note": "heights are exact rationals below 2e10; the window of the contour is a parameter which holds its pixels"
  },
  {
   "property": "C90",
   "status": "proved",
   "theorems": [
    "C90_centres",
    "C90_increasing",
    "C90_bounds",
    "C90_circular",
    "C90_circular_centres",
    "C90_turn",
    "C90_columns",
    "C90_tolerance_refuted",
    "C90_strict_refuted",
    "C90_bounds_refuted"
   ],
   "note": "coordinates are exact rationals; one axis at a time"
  },
  {
   "property": "C91",
   "status": "proved",
   "theorems": [
    "C91_kept",
    "C91_built",
    "C91_tables",
    "C91_nearest",
    "C91_nearest_first",
    "C91_outside_refuted",
    "C91_empty_refuted"
   ],
   "note": "coordinates are exact rationals, indices unbounded; what matplotlib draws is any list of contours"
  },
  {
   "property": "C92",
   "status": "proved",
   "theorems": [
    "C92_joined",
    "C92_unchanged",
    "C92_cut_once",
    "C92_lost_refuted"
   ],
   "note": "coordinates are exact rationals; the limit of Python on nested calls is not modelled"
  },
  {
   "property": "C93",
   "status": "proved",
   "theorems": [
    "C93_kept",
    "C93_closed",
    "C93_none",
    "C93_times",
    "C93_refuted"
   ],
   "note": "times are integers; the number of days is an integer"
  },
  {
   "property": "C94",
   "status": "proved",
   "theorems": [
    "C94_kept",
    "C94_times",
    "C94_swapped",
    "C94_same_row_refuted",
    "C94_last_row_refuted"
   ],
   "note": "times are integers and costs exact rationals; the sort of event times is any sort"
  },
  {
   "property": "C95",
   "status": "proved",
   "theorems": [
    "C95_area",
    "C95_turn",
    "C95_cut",
    "C95_edge_refuted",
    "C95_inverted_refuted"
   ],
   "note": "coordinates are exact rationals, not nan"
  },
  {
   "property": "C96",
   "status": "proved",
   "theorems": [
    "C96_sub_sample",
    "C96_first_last",
    "C96_cut_track_refuted",
    "C96_empty_refuted"
   ],
   "note": "times are exact rationals"
  },
  {
   "property": "C97",
   "status": "proved",
   "theorems": [
    "C97_polygons",
    "C97_all_inside_refuted",
    "C97_contains"
   ],
   "note": "coordinates are exact rationals"
  },
  {
   "property": "C98",
   "status": "proved",
   "theorems": [
    "C98_count",
    "C98_mean",
    "C98_percent",
    "C98_total",
    "C98_default_bins",
    "C98_bins_mean",
    "C98_std_refuted",
    "C98_empty_refuted"
   ],
   "note": "values are exact rationals; the histogram of numpy is specified, not transcribed"
  },
  {
   "property": "C99",
   "status": "proved",
   "theorems": [
    "C99_mean",
    "C99_constant",
    "C99_bounds",
    "C99_turn",
    "C99_high_low",
    "C99_wide_refuted",
    "C99_column_refuted",
    "C99_nan_refuted"
   ],
   "note": "values and weights are exact rationals; filter2D is specified as a correlation"
  },
  {
   "property": "C100",
   "status": "proved",
   "theorems": [
    "C100_mirror",
    "C100_empty",
    "C100_centred",
    "C100_shift_refuted"
   ],
   "note": "weights are exact rationals; the formulas of the weights are not modelled"
  },
  {
   "property": "C101",
   "status": "proved",
   "theorems": [
    "C101_first",
    "C101_kept",
    "C101_indices_refuted",
    "C101_written",
    "C101_copy",
    "C101_copy_refuted",
    "C101_add_refuted",
    "C101_clean",
    "C101_height"
   ],
   "note": "arrays and their transposition are parameters; attributes of variables are not modelled"
  },
  {
   "property": "C102",
   "status": "proved",
   "theorems": [
    "C102_item",
    "C102_shift",
    "C102_last_refuted",
    "C102_reset",
    "C102_path",
    "C102_units_refuted"
   ],
   "note": "the advection itself is C58 and C62"
  },
  {
   "property": "C103",
   "status": "proved",
   "theorems": [
    "C103_networks",
    "C103_below_refuted",
    "C103_segments"
   ],
   "note": "columns of nonnegative integers"
  },
  {
   "property": "C104",
   "status": "proved",
   "theorems": [
    "C104_tables",
    "C104_numbering",
    "C104_stale",
    "C104_stale_refuted"
   ],
   "note": "the network is its columns track and segment; a sort is given by its permutation"
  },
  {
   "property": "C105",
   "status": "proved",
   "theorems": [
    "C105_same",
    "C105_value",
    "C105_list",
    "C105_segments"
   ],
   "note": "the method is a parameter; fields of one value for each row"
  },
  {
   "property": "C106",
   "status": "proved",
   "theorems": [
    "C106_subset",
    "C106_dead_end_refuted",
    "C106_trash_refuted"
   ],
   "note": "numbers asked for are between the lowest and the highest network of the file; the plot of the period is not modelled"
  },
  {
   "property": "C107",
   "status": "proved",
   "theorems": [
    "C107_walk",
    "C107_selected"
   ],
   "note": "nearest contour, containment, pixels and mean speed are parameters (modelled in other files)"
  },
  {
   "property": "C108",
   "status": "proved",
   "theorems": [
    "C108_anticyclonic",
    "C108_cyclonic",
    "C108_cyclonic_refuted"
   ],
   "note": "containment of an eddy in a contour is a parameter"
  },
  {
   "property": "C109",
   "status": "proved",
   "theorems": [
    "C109_match",
    "C109_rows",
    "C109_method",
    "C109_default_refuted"
   ],
   "note": "areas of intersections (library Polygon) are a parameter; re_reference_index of a mask gives booleans and is not modelled"
  },
  {
   "property": "C110",
   "status": "proved",
   "theorems": [
    "C110_tracks",
    "C110_apart",
    "C110_twice_refuted",
    "C110_before_refuted",
    "C110_no_day_refuted"
   ],
   "note": "close_network has the same loop but builds its bins with range() on dates which are floats, so it fails before it; it is not modelled further"
  },
  {
   "property": "C111",
   "status": "proved",
   "theorems": [
    "C111_zarr",
    "C111_zarr_all",
    "C111_netcdf",
    "C111_netcdf_all",
    "C111_open",
    "C111_step",
    "C111_negative_refuted",
    "C111_store"
   ],
   "note": "one column; the conversion of a row is a parameter; opening of files, compression and versions are not modelled"
  },
  {
   "property": "C112",
   "status": "proved",
   "theorems": [
    "C112_nearest",
    "C112_again",
    "C112_order",
    "C112_raw",
    "C112_unpacked",
    "C112_raw_units_refuted"
   ],
   "note": "exact arithmetic: the rounding of floats is not modelled; a value which does not fit in the integer type is an error of the model"
  },
  {
   "property": "C113",
   "status": "proved",
   "theorems": [
    "C113_sign",
    "C113_column",
    "C113_unknown_refuted"
   ],
   "note": "other attributes are not modelled"
  },
  {
   "property": "C114",
   "status": "proved",
   "theorems": [
    "C114_remove",
    "C114_add",
    "C114_remove_add_refuted",
    "C114_concatenate",
    "C114_concatenate_refuted",
    "C114_merge",
    "C114_copy",
    "C114_load"
   ],
   "note": "types of the columns are not modelled; numbers of tracks of a merge are in C69"
  },
  {
   "property": "C115",
   "status": "proved",
   "theorems": [
    "C115_coherence",
    "C115_one_date_refuted",
    "C115_null_refuted"
   ],
   "note": "the movement by a pair of fields, the creation of particles and the search of the eddy around a point are parameters (C55, C58, C62 and C83 treat them)"
  },
  {
   "property": "C116",
   "status": "proved",
   "theorems": [
    "C116_following",
    "C116_fits",
    "C116_networks_refuted",
    "C116_events"
   ],
   "note": "the percentile itself is not modelled: the theorem gives the list of values it is applied to"
  },
  {
   "property": "C117",
   "status": "proved",
   "theorems": [
    "C117_columns",
    "C117_run",
    "C117_straight",
    "C117_turn"
   ],
   "note": "exact arithmetic; elements other than positions, date and contours are one value by row"
  },
  {
   "property": "C118",
   "status": "proved",
   "theorems": [
    "C118_region",
    "C118_extent",
    "C118_turns",
    "C118_reach",
    "C118_mask",
    "C118_defined",
    "C118_links",
    "C118_null_refuted"
   ],
   "note": "exact arithmetic; the distance and the mask of the ground are parameters"
  },
  {
   "property": "C119",
   "status": "proved",
   "theorems": [
    "C119_files",
    "C119_outputs",
    "C119_no_short_track_refuted"
   ],
   "note": "a run without previous correspondences; the filling of virtual observations is C48"
  },
  {
   "property": "C120",
   "status": "proved",
   "theorems": [
    "C120_best",
    "C120_unique",
    "C120_methods",
    "C120_exact",
    "C120_moves",
    "C120_inside",
    "C120_formula_refuted",
    "C120_centre_refuted"
   ],
   "note": "on exact real numbers; uses the three axioms of the real numbers of the standard library (sig_forall_dec, sig_not_dec, functional_extensionality_dep)"
  },
  {
   "property": "C121",
   "status": "proved",
   "theorems": [
    "C121_size",
    "C121_points",
    "C121_vertices",
    "C121_ends",
    "C121_regular",
    "C121_single",
    "C121_mean",
    "C121_profile"
   ],
   "note": ""
  },
  {
   "property": "C122",
   "status": "proved",
   "theorems": [
    "C122_great_circle",
    "C122_metric",
    "C122_turns",
    "C122_matrix",
    "C122_matrix_cells",
    "C122_local_norm",
    "C122_back",
    "C122_forth",
    "C122_pole_refuted",
    "C122_circle"
   ],
   "note": "on exact real numbers; uses the axioms of the real numbers of the standard library (sig_forall_dec, sig_not_dec, functional_extensionality_dep, classic)"
  },
  {
   "property": "C123",
   "status": "proved",
   "theorems": [
    "C123_shift",
    "C123_fit",
    "C123_equal_area",
    "C123_exact",
    "C123_cache"
   ],
   "note": "on exact real numbers; uses the axioms of the real numbers of the standard library (sig_forall_dec, sig_not_dec, functional_extensionality_dep, classic); the solver of numpy is a parameter"
  },
  {
   "property": "C124",
   "status": "proved",
   "theorems": [
    "C124_vertices",
    "C124_convex",
    "C124_clockwise_refuted",
    "C124_hollow_refuted",
    "C124_tested_refuted"
   ],
   "note": "coordinates are exact rationals; the claim that the result is convex is refuted (C124_hollow_refuted)"
  },
  {
   "property": "C125",
   "status": "proved",
   "theorems": [
    "C125_kernels",
    "C125_defined",
    "C125_loess",
    "C125_lanczos",
    "C125_mirror"
   ],
   "note": "on exact real numbers; uses the axioms of the real numbers of the standard library (sig_forall_dec, sig_not_dec, functional_extensionality_dep, classic); j1 of scipy is a parameter; orders below 1 are not modelled"
  },
  {
   "property": "C126",
   "status": "proved",
   "theorems": [
    "C126_exact",
    "C126_origin_refuted",
    "C126_straight_refuted"
   ],
   "note": "on exact real numbers; uses the axioms of the real numbers of the standard library (sig_forall_dec, sig_not_dec, functional_extensionality_dep, classic); points exactly on an ellipse; for other points only the formulas are modelled"
  },
  {
   "property": "C127",
   "status": "proved",
   "theorems": [
    "C127_tracks",
    "C127_kept",
    "C127_stale_refuted",
    "C127_empty_refuted",
    "C127_age"
   ],
   "note": "exact rationals for the age; rows of the same fields"
  },
  {
   "property": "C128",
   "status": "proved",
   "theorems": [
    "C128_cost",
    "C128_seam_refuted",
    "C128_overlap",
    "C128_merge",
    "C128_shapes"
   ],
   "note": "exact rationals; areas, intersections and unions of the library Polygon are parameters with the usual laws of areas; costs stored with 32 bits are not modelled"
  },
  {
   "property": "C129",
   "status": "proved",
   "theorems": [
    "C129_azimuth",
    "C129_directions",
    "C129_sign_refuted"
   ],
   "note": "real numbers of the standard library (axioms listed in DESIGN.md)"
  },
  {
   "property": "C130",
   "status": "proved",
   "theorems": [
    "C130_latitude",
    "C130_longitude",
    "C130_wrap",
    "C130_slope",
    "C130_width_refuted"
   ],
   "note": "real numbers of the standard library (axioms listed in DESIGN.md)"
  },
  {
   "property": "C131",
   "status": "proved",
   "theorems": [
    "C131_written",
    "C131_read_back",
    "C131_zarr_refuted",
    "C131_default"
   ],
   "note": "names only (no handlers, no members of archives); conversions other than %(key)s and %% are not modelled"
  },
  {
   "property": "C132",
   "status": "proved",
   "theorems": [
    "C132_regrid",
    "C132_land",
    "C132_written",
    "C132_new_name_refuted"
   ],
   "note": "interpolation is a parameter, exact rationals; coordinate variables and shapes of arrays are not modelled"
  },
  {
   "property": "C133",
   "status": "proved",
   "theorems": [
    "C133_identified",
    "C133_error",
    "C133_refuted",
    "C133_greatest_refuted"
   ],
   "note": "labels stand for networks or unique numbers of segments; equality of floats is equality of integers (no nan)"
  },
  {
   "property": "C134",
   "status": "proved",
   "theorems": [
    "C134_date",
    "C134_date_time",
    "C134_read",
    "C134_eight",
    "C134_six",
    "C134_month_refuted",
    "C134_hours_refuted",
    "C134_minutes_refuted"
   ],
   "note": "a text is digits, T, spaces and other characters; the expressions are those of the standard library of python 3 for these directives"
  },
  {
   "property": "C135",
   "status": "proved",
   "theorems": [
    "C135_read",
    "C135_date",
    "C135_hours_refuted",
    "C135_directory_refuted",
    "C135_letter_refuted"
   ],
   "note": "paths of printable characters without quote and of at most 500 bytes; a date not written in numpy's empty array is the value Unset"
  },
  {
   "property": "C136",
   "status": "proved",
   "theorems": [
    "C136_numbers",
    "C136_error",
    "C136_segments_refuted"
   ],
   "note": "the checks of next and previous observations, only printed, are not modelled"
  },
  {
   "property": "C137",
   "status": "proved",
   "theorems": [
    "C137_tracks",
    "C137_segments",
    "C137_cut_refuted",
    "C137_place_refuted"
   ],
   "note": "exact rationals"
  },
  {
   "property": "C138",
   "status": "proved",
   "theorems": [
    "C138_relatives",
    "C138_other_network_refuted"
   ],
   "note": ""
  },
  {
   "property": "C139",
   "status": "proved",
   "theorems": [
    "C139_first_come",
    "C139_first_come_unique",
    "C139_order_refuted",
    "C139_empty"
   ],
   "note": ""
  },
  {
   "property": "C140",
   "status": "proved",
   "theorems": [
    "C140_in_step",
    "C140_play",
    "C140_window",
    "C140_width_refuted",
    "C140_first_day",
    "C140_left",
    "C140_left_gap_refuted",
    "C140_left_no_color_refuted",
    "C140_film"
   ],
   "note": ""
  },
  {
   "property": "C141",
   "status": "proved",
   "theorems": [
    "C141_shown",
    "C141_pan",
    "C141_total",
    "C141_period",
    "C141_dates",
    "C141_texts",
    "C141_texts_drawn",
    "C141_pointed",
    "C141_pointed_50_refuted",
    "C141_infos",
    "C141_note",
    "C141_pan_stale_refuted",
    "C141_note_refuted",
    "C141_pointed_refuted",
    "C141_old_dates_refuted"
   ],
   "note": ""
  },
  {
   "property": "C142",
   "status": "proved",
   "theorems": [
    "C142_files",
    "C142_percents",
    "C142_same_folder_refuted",
    "C142_percent_refuted"
   ],
   "note": ""
  },
  {
   "property": "C143",
   "status": "proved",
   "theorems": [
    "C143_corners",
    "C143_value",
    "C143_one_box",
    "C143_pole_refuted"
   ],
   "note": ""
  },
  {
   "property": "C144",
   "status": "proved",
   "theorems": [
    "C144_networks"
   ],
   "note": ""
  },
  {
   "property": "C145",
   "status": "proved",
   "theorems": [
    "C145_spectra",
    "C145_area",
    "C145_ratio",
    "C145_hole",
    "C145_self",
    "C145_scaling_refuted",
    "C145_mask_refuted",
    "C145_reference_refuted"
   ],
   "note": ""
  },
  {
   "property": "C146",
   "status": "proved",
   "theorems": [
    "C146_round_trip",
    "C146_join_refuted",
    "C146_empty_step",
    "C146_join_save",
    "C146_width"
   ],
   "note": ""
  },
  {
   "property": "C147",
   "status": "proved",
   "theorems": [
    "C147_height",
    "C147_name_refuted",
    "C147_one_speed",
    "C147_unregular",
    "C147_options",
    "C147_indexs"
   ],
   "note": ""
  },
  {
   "property": "C148",
   "status": "proved",
   "theorems": [
    "C148_same_links",
    "C148_exact",
    "C148_row",
    "C148_resume_refuted"
   ],
   "note": ""
  },
  {
   "property": "C149",
   "status": "proved",
   "theorems": [
    "C149_settings",
    "C149_directory",
    "C149_compatible",
    "C149_written",
    "C149_kept",
    "C149_continued",
    "C149_options_refuted",
    "C149_files_refuted"
   ],
   "note": ""
  },
  {
   "property": "C150",
   "status": "proved",
   "theorems": [
    "C150_events",
    "C150_array_refuted",
    "C150_colors",
    "C150_segments",
    "C150_several"
   ],
   "note": "styles of the lines and the conversion of the dates to datetime64 are not modelled"
  },
  {
   "property": "C151",
   "status": "proved",
   "theorems": [
    "C151_merge",
    "C151_different",
    "C151_empty",
    "C151_values",
    "C151_tracks_refuted",
    "C151_missing_refuted",
    "C151_packing_refuted",
    "C151_rotation_refuted"
   ],
   "note": "types of the columns are not modelled; netcdf files"
  },
  {
   "property": "C152",
   "status": "proved",
   "theorems": [
    "C152_names",
    "C152_access",
    "C152_no_name",
    "C152_hasattr_refuted",
    "C152_load",
    "C152_loads",
    "C152_fails",
    "C152_round_trip",
    "C152_include_refuted",
    "C152_dates_refuted"
   ],
   "note": "packing, slices and the rotation are in other properties"
  },
  {
   "property": "C153",
   "status": "proved",
   "theorems": [
    "C153_counts",
    "C153_distances",
    "C153_gap_refuted",
    "C153_raises_refuted"
   ],
   "note": "the distributions are histograms (C98); areas and layout are not modelled"
  },
  {
   "property": "C154",
   "status": "proved",
   "theorems": [
    "C154_isolation",
    "C154_append",
    "C154_shared_refuted",
    "C154_copy",
    "C154_period",
    "C154_period_kept",
    "C154_period_stale_refuted",
    "C154_equal",
    "C154_equal_copy"
   ],
   "note": "insertion at the end only (elsewhere: C33); the datasets have the same fields"
  },
  {
   "property": "C155",
   "status": "proved",
   "theorems": [
    "C155_band",
    "C155_constant",
    "C155_level",
    "C155_defined"
   ],
   "note": "the kernels are parameters; a grid with a nan after the first filter is not followed; values are exact rationals"
  },
  {
   "property": "C156",
   "status": "proved",
   "theorems": [
    "C156_counts",
    "C156_displayed",
    "C156_rates",
    "C156_trash_refuted",
    "C156_empty_refuted"
   ],
   "note": "the events are counted by C74; layout and rounding are not modelled"
  },
  {
   "property": "C157",
   "status": "proved",
   "theorems": [
    "C157_written",
    "C157_kept",
    "C157_accepted",
    "C157_refused_refuted"
   ],
   "note": "the packing of the values is C33 and following; the compression and the other attributes are not modelled"
  },
  {
   "property": "C158",
   "status": "proved",
   "theorems": [
    "C158_selection",
    "C158_independent",
    "C158_copied",
    "C158_split"
   ],
   "note": "what a selection keeps is proved with the other properties of the correspondences"
  },
  {
   "property": "C159",
   "status": "proved",
   "theorems": [
    "C159_read_back",
    "C159_short_name_refuted",
    "C159_unlisted"
   ],
   "note": "the packing of the values is not modelled here; a name stands for a field and for its variable"
  }
 ]
}
