# Formal model of py-eddy-tracker in Rocq

The source of py-eddy-tracker is read as text in `/repo`. The functions that
decide track numbers, links, groups, indices and selections are rewritten as
total Gallina functions, branch by branch, and properties C01... are proved on
them for all inputs.

## Layout

- `rocq/theories/Xxx_model.v`: functions transcribed from the code, each with the file and lines it comes from.
- `rocq/theories/Xxx_proofs.v`: lemmas.
- `rocq/theories/Xxx_props.v`: property theorems, each followed by `Print Assumptions` and beside a non trivial example.
- `tools/props.py`, `tools/gen_docs.py`: metadata, generates `properties.jsonl`, `MANIFEST.json` and this file.
- `seeded/LOG.jsonl`: wrong programs tried against the theorems.

## Trusted base

- Coq 8.16.1 kernel (no kernel check switched off, `-Q theories Verif` only).
- `Print Assumptions` answers `Closed under the global context` for every theorem of MANIFEST.json, except those about real numbers (C120 and later ones whose note says so): these use axioms of the standard library: `ClassicalDedekindReals.sig_forall_dec`, `ClassicalDedekindReals.sig_not_dec` and `FunctionalExtensionality.functional_extensionality_dep` for all of them, and `Classical_Prop.classic` for those which need bounds of pi or the inverse tangent (`C120_formula_refuted`, C122 and later ones). Nothing else. vcheck, which looks at the whole of the libraries loaded, also lists the sealed definitions of the modules `Rdefinitions.RbaseSymbolsImpl`, `Rdefinitions.RinvImpl` and `ssrunder.Under_rel` of the standard library. No axiom is added by this development.
- The transcription from Python to Gallina, done by hand, with these conventions:
  - Python / numpy integers are `Z` or `nat`, unbounded, unless a fixed width matters to the property.
  - Floating point numbers are rationals `Q`, or real numbers `R` where roots and angles are needed; rounding is not modelled.
  - Arrays are lists; a read or a store out of range is an explicit error value, never a default.
  - numpy fancy assignment with repeated indices keeps the last write.
  - Exceptions are values. Loops are structural recursion or carry fuel with an explicit error when it runs out.
  - Python recursion limit, memory exhaustion, file system and netCDF/zarr encodings are not modelled.
- Calls to libraries (matplotlib contours, polygon intersection, spherical distance, numba compilation) are parameters of the theorems.
- The last section lists the functions which are modelled and those which are not.


## What was found in the code

Behaviours of the code met while modelling it, each with the theorem that shows it when there is one.

- Virtual observations, `segment_size` is a signed byte: with nb_virtual >= 128 a lost track is never forgotten (`C04_refuted`).
- A tracking run with virtual observations stopped after two links cannot be saved; stopped after one link it cannot be resumed (`C09_early_stop_refuted`).
- `merge_correspondance` can hand out numbers already used, fails for tracks reborn from a virtual observation, and reads the last step of the later run when the junction is its first date (`C10_refuted`).
- `Correspondances.longer_than` changes nothing when no track is long enough, `shorter_than` raises when none is short enough (`C08_selections_partition`).
- `flatten_line_matrix` stores one element past the end of its buffer (`C18_flatten_writes_past_end`).
- `window_index` reads past the end of the centre array in an exactly known case (`C15_window_reads_past_end`).
- `simplify` loses a single valid point in last position (`C66_single_last_point_lost_refuted`).
- With equal costs the association depends on the order of the eddies (`C67_ties_depend_on_order_refuted`).
- `distance_to_next` loses one step inside a track when the numbers do not start at 0 (the case after `compress_id`) or have a gap; `add_distance` raises unless the dataset has exactly one row (`C26_refuted`).
- `extract_toward_direction(west=True, delta_lon=v)` with v >= 0 never keeps anything (`C71_west_span_refuted`); it raises for a single observation whose number is not 0 (`C71_single_refuted`).
- `EddiesObservations.merge` shifts by the last stored number: an unsorted first dataset mixes tracks (`C69_unsorted_refuted`).
- `concatenate` raises when a dataset of the list is empty (`C24_empty_refuted`).
- `extract_ids` with a number above the largest one reads outside its tables (numba, unchecked); `full_path` or `remove_incomplete` on an empty dataset raises; `reject_virtual` modifies the mask of the caller and is ignored without `full_path`.
- The `datasets` list of a saved tracking run is not compared with the new list when resuming; runs reloaded from files all have the same file name, so joining them raises.
- `build_unique_array` and `new_numbering` give two identifiers to one segment when rows are not sorted, and read outside an empty array (`C43_unsorted_refuted`).
- `iter_on` on a sorted field with values under the first edge yields a group with bounds (last edge, first edge), with values from the last edge on it raises; an unsigned field is always taken as sorted (`C30_sorted_outside_refuted`, `C30_unsigned_refuted`).
- `align_on(all_ref=True)` raises for a sorted dataset (a slice has no dtype) and drops the bins after the last one of the other dataset (`C31_all_ref_sorted_refuted`, `C31_all_ref_end_refuted`).
- `merge_filters` unites two slices and compares negative and positive indices as numbers (`C32_two_slices_refuted`, `C32_negative_index_refuted`).
- `insert_observations` with an index after the end can lose the inserted row (`C33_outside_refuted`).
- `grid_box_stat` stores the statistic of a cell in the next occupied cell (`C34_own_cell_refuted`).
- `find_link` in both directions from several observations shares one mask between the searches and misses observations (`C39_both_from_several_refuted`).
- `relatives` with an order of 65535 or more selects the whole dataset (`C40_order_limit_refuted`).
- `remove_dead_end(recursive=n, mask=m)` does not pass the mask to the next passes (`C42_mask_lost_refuted`); it returns nothing, so `analysis_coherence`, which uses its result, fails.
- `sort` is not stable: numpy compares the remaining fields when the keys are equal (`C37_not_stable_refuted`).
- C45: when a segment splits from (or merges into) the last (first) row of the main one, the index -1 taken as the row after (before) the event marks the last row of the whole dataset (theorem `C45_event_without_main_refuted`).
- C74: a merging into the first row of a segment reports the row -1, i.e. the last row of the dataset, as the row before the merging (`C74_no_row_before_refuted`); births and deaths skip the first segment of any dataset when it has no link, even if it is not in network 0 (`C74_lonely_first_refuted`).
- C75: selecting a network number below the smallest one selects the networks counted from the end (`C75_outside_refuted`).
- C76: remove_trash tests the first segment only, so that a network 0 with a lonely first segment is removed with its linked segments (`C76_trash_refuted`).
- C77: a virtual first row makes fix_next_previous_obs write the next link of the last row, a virtual last row writes after the end (`C77_ends_refuted`).
- C46: the comparison of items stops with the shortest one (`C46_sizes_refuted`); identify_in only calls it with items of the same size.
- C47: the class of the cache is a singleton: a Network object built after another one with the other kind of contour works with the contours of the first kind (`C47_second_object_refuted`).
- C29: split_network returns dates cut to whole numbers of the median difference of dates (`C29_dates_refuted`); with a single date the step is the median of an empty array, nan, and the dates are undefined.
- insert_virtual (C48): inserted rows get track 0, `virtual[:] = mask` drops the flags of rows already virtual, in a network rows are inserted between two segments of the same network number, and links far from the gaps keep the row numbers of the old dataset.
- get_matrix (C49): the percentage is compared with the integer part stored in an 8 bits array, so an eddy receiving fewer particles can become the first target.
- keep_tracks_by_date (C79): wrong groups for unsorted unsigned track numbers, error on an empty dataset.
- particle_candidate_atlas (C80): the last start date whose end date is in the dataset is not used.
- reduce_size reads outside the array when all the points of a contour are equal (`C52_all_equal_refuted`), although its comment says this case is handled.
- poly_area is wrong for a contour without its closing point (`C53_open_refuted`).
- poly_indexs loses particles of contours wider than 180 degrees (`C55_wide_refuted`) and fails without particles; bbox_intersection can miss a pair when the widths sum to 180 degrees or more (`C56_wide_refuted`); poly_contain_poly refuses vertices far from the first one (`C84_wide_refuted`).
- convex accepts stars and depends on the direction when three vertices are in a line (`C85_refuted`); points on a vertical edge are inside or not according to the direction of the contour (`C81_boundary_refuted`).
- c_to_bounds gives decreasing bounds, and centres outside of their cell, for uneven centres (`C64_refuted`).
- compute_stencil uses values of the line before near the ends of a line which does not wrap (`C59_border_refuted`), and masked values when both sides are masked (`C59_both_masked_refuted`).
- advect and the three other schemes do not lose a particle south of the grid: row -1 is read as the last row, so it moves with the northern current (`C58_south_refuted`).
- the first particle in cell (-100000, -100000) of a grid which does not wrap stays in place instead of being lost (`C58_mark_refuted`).
- GridCollection.advect extrapolates in time when the start is between two dates, when releases do not divide the intervals, or when intervals are shorter than a release (`C62_refuted`); GridCollection.interp does for negative times (`C62_interp_refuted`).
- get_pixels_in finds nothing for a contour which touches the first row of a regular grid, because the window of rows is not clamped (`C63_south_refuted`, `C87_south_refuted`); it finds pixels on the wrong side for a contour across the western side of a grid which does not wrap (`C63_west_refuted`); around the earth it finds nothing for a contour of another turn away from the seam (`C63_other_turn_refuted`) or nearly as wide as the grid (`C63_wide_refuted`).
- interp_grid with max or min uses masked values (`C88_masked_refuted`) and returns an extreme constant without pixel (`C88_empty_refuted`).
- get_group does not check its thresholds: with low above high an eddy is in two families (`C65_thresholds_refuted`).
- Amplitude: the barycentre of a flat bottom may be outside the contour and gives the amplitude (`C89_plateau_refuted`); two lowest pixels which touch by a corner count twice (`C89_corner_refuted`).
- setup_coordinates with is_centered false makes one centre per bound: a grid around the earth has its first cell twice or is not circular (`C90_bounds_refuted`); equal centres are accepted (`C90_strict_refuted`); is_circular misses ends on both sides of a multiple of 360 (`C90_tolerance_refuted`).
- The search of the nearest contour of a level starts from the first vertex of the first contour of the level, whether or not its box holds the point: a contour beside the point can be the answer (`C91_outside_refuted`). Contours without any contour drawn fail on an undefined variable (`C91_empty_refuted`).
- find_wrapcut_path_and_join drops the open contours of the first meridian when open contours stay on both meridians, also when open contours are asked for (`C92_lost_refuted`).
- correct_close_events, after it moved the slice of a segment, writes from the merging to the stop of the moved slice: when close events meet, rows of unrelated segments stored in between take the number, and a segment gets two observations at the same time (`C93_refuted`).
- swap_track gives the number of the main segment to every long segment which splits from the same row (`C94_same_row_refuted`), and reads the cost of the last row of the dataset when the main segment stops at the splitting (`C94_last_row_refuted`).
- extract_with_area with the whole globe loses the observations on its western edge and at the poles (`C95_edge_refuted`).
- first_obs and last_obs use the observation number instead of the track number: after a selection which removes the start of a track, first_obs has no row for this track and last_obs none for the one before (`C96_cut_track_refuted`).
- mask_from_polygons fails when every observation is in one of the polygons before the last one: the contour test does not accept an empty list of points (`C97_all_inside_refuted`).
- bins_stat accepts the documented method "std" and returns the counts (`C98_std_refuted`).
- A filter on a circular grid fails when the kernel reaches further than the whole circle, which happens near the poles with long wavelengths (`C99_wide_refuted`).
- GridDataset.copy of a variable which has not been read yet loses its orientation: the copy is written transposed (`C101_copy_refuted`); GridDataset.grid ignores the indices once the variable is loaded (`C101_indices_refuted`); uv_for_advection with another height reuses the velocities of the first (`C101_height`).
- GridCollection.path gives its first time in days and the others in seconds, and no first time when t_init is given by position (`C102_units_refuted`); GridCollection.interp fails at the last date (`C102_last_refuted`).
- network_size of a number below the lowest network answers for another network, so `quick_compare` prints as 'trash obs' the size of some network when there is no network 0 (`C103_below_refuted`).
- numbering_network keeps the table of the former numbers once it has been asked for: network_size, network_slice and networks answer for the former numbers until the rows are sorted (`C104_stale`, `C104_stale_refuted`).
- The command EddyNetworkSubSetter fails with the option --remove_dead_end, because remove_dead_end gives back nothing (`C106_dead_end_refuted`), and its option --remove_trash has no effect, because the result of remove_trash is dropped (`C106_trash_refuted`).
- When the mean speed of the contour of an eddy is not a number, get_uavg never selects an inner contour, because no number is greater or equal to nan (`C107_selected`).
- label_contour_unused_which_contain_eddies compares the eddies with the wrong level for cyclones: a contour which holds two cyclones of the next level is never marked (`C108_cyclonic`, `C108_cyclonic_refuted`).
- match with its default minimum (cmin=0) also gives the pairs whose boxes cross although the contours have nothing in common, with score 0 (`C109_default_refuted`); re_reference_index fails on the default subset slice(None), because the slice has no start.
- close_tracks counts matching pairs and not observations (`C110_twice_refuted`), fails when the other atlas is sorted by time and begins before (`C110_before_refuted`) and when the crossing periods have no common day (`C110_no_day_refuted`). close_network calls range() on floating dates and fails for every atlas whose dates are floats.
- Loading a slice of rows without end fails (min(None, nb)) (`C111_open`); in netcdf a slice with a step fails or duplicates its first row (`C111_step`), although the code says that the step is not used; a slice with a negative start gives copies of the last row (`C111_negative_refuted`).
- Raw data read from a zarr file are multiplied by the factor of the units and those of a netcdf file are not (`C112_raw_units_refuted`).
- Tracks whose rotation is not known are named Cyclonic by sign_legend and titled Anticyclonic in the file, so they are read back as anticyclonic (`C113_unknown_refuted`).
- coherence does not compare the variables loaded: concatenate of two datasets loaded with different include_vars puts the values of one variable in the column of another one (`C114_concatenate_refuted`); add_fields fails after remove_fields (`C114_remove_add_refuted`); fields removed at load (remove_vars) which are basic elements remain as zeros (`C114_load`); load_from_zarr requires the attribute track_array_variables, which to_zarr does not write for a dataset without arrays.
- segment_coherence_forward and backward raise a ZeroDivisionError when the period lasts exactly n_days: the message of progress divides by the number of dates minus one (`C115_one_date_refuted`); n_days = 0 raises an UnboundLocalError in advect (`C115_null_refuted`).
- get_percentile_on_following_obs compares the numbers of segment without the network (`C116_networks_refuted`) and can write past the end of its buffer (numba does not check).
- Virtual eddies have a null date, and with the tracker of areas their contours stay where the eddy was lost although their centre moves (`C117_straight`).
- With the reference tracker an eddy of null amplitude (or radius) raises a division by zero as soon as another eddy is in its search ellipse (`C118_null_refuted`).
- The command EddyTracking fails after the save of the links, without any dataset, when no track is shorter than TRACK_DURATION_MIN, because shorter_than raises on an empty selection (`C119_no_short_track_refuted`); it fails as well without any track, and at the save of the links when virtual eddies are used with exactly three files (`C119_outputs`). browse_dataset_in with one of start_date and end_date only is an error (`C119_files`).
- The shape error is not the formula of its documentation when vertices are out of the circle: a square circumscribed to the disc has an error of 100 % instead of 27 % (`C120_formula_refuted`). The fit divides by zero when the best centre is a vertex, as for a square with a notch (`C120_centre_refuted`).
- local_to_coordinates with a reference on a pole gives the longitude of the reference to every point (`C122_pole_refuted`), so that a circle drawn around a pole is a part of a meridian.
- fit_circle_path keeps the circle with the contour: after a change of its vertices the old circle is returned (`C123_cache`).
- get_convex_hull never looks at its first vertex during the search: a hollow just before the leftmost vertex stays in the result, which is not convex (`C124_hollow_refuted`).
- get_convex_hull on a clockwise contour gives one vertex twice (`C124_clockwise_refuted`); the contour of tests/test_poly.py is clockwise, so test_convex_hull checks the convexity of one point (`C124_tested_refuted`).
- kernel_loess with an order over 1 has negative weights beyond the wave length, of which the size grows like the ninth power of the distance (`C125_loess`).
- fit_ellipse swaps its two axes when the origin of the coordinates is outside the ellipse, is not determined when the ellipse goes through the origin, and divides by zero for circles and ellipses along the axes (`C126_exact`, `C126_origin_refuted`, `C126_straight_refuted`).
- append keeps the tables of tracks already computed: iter_track, track_slice and nb_tracks then ignore the rows added (`C127_stale_refuted`, `C127_empty_refuted`).
- age has no value for tracks of one observation (0 / 0), although the documentation gives a range from 0 to 100 (`C127_age`).
- cost_function_common_area compares the boxes before moving the second contour by a turn: eddies on both sides of the change of longitude never have a common area (`C128_seam_refuted`).
- get_azimuth(equatorward=True) is positive for a track straight to the equator from the north and negative for a track straight to the pole in the south, against the documentation (`C129_sign_refuted`).
- compute_finite_difference refuses no whole number as a width (`not isinstance(schema, int) and schema < 1`): a negative one gives wrong slopes, and with wrap a width over the number of columns gives 0 (`C130_width_refuted`).
- write_file(zarr_flag=True) with a name without ".nc" writes a file of zarr that load_file reads as netcdf, and changes ".nc" inside the names of directories (`C131_zarr_refuted`).
- regrid with a new name keeps the name of the source in the description: write stores the field under the former name, or fails when the grid already has it (`C132_new_name_refuted`).
- identify_in (comparison of atlases of networks) raises when the sizes never decrease with the number of the network and the other atlas lacks one of them (`C133_refuted`), and leaves out of its result the networks greater than all those of the other (`C133_greatest_refuted`).
- compress_id of extract_with_mask sets an attribute of the new object and not its field: the items and the files keep the old numbers (`C23_stored_refuted`); in extract_longer_eddies it raises, the array of observations having no attribute track (`C23_longer_refuted`).
- A date given as YYYYMMDDHH or YYYYMMDDHHMM (option of the detection command, or in the name of a file) is accepted and read as another time, sometimes another day (`C134_hours_refuted`, `C134_minutes_refuted`).
- The tracking command reads no date for the files given without directory (a pattern in the current directory): the dates by which it sorts and checks them are uninitialised memory (`C135_directory_refuted`); the same for names with YYYYMMDDTHHMMSS, a form it accepts elsewhere (`C135_letter_refuted`).
- run_compare counts as "same NS" a network which has other segments when these are longer than all those of the other atlas (`C136_segments_refuted`), and raises when no network is common (`C136_error`).
- position_filter averages longitudes as plain numbers: a track from 359 to 1 is moved to 180 (`C137_cut_refuted`), and gives other values for the same track when it holds the first or last row of the dataset (`C137_place_refuted`).
- find_segments_relative takes the segment of the same number in the network of the first observation when the stopped observation is in another network (`C138_other_network_refuted`).
- The animation never shows the first date of the atlas, and the film made of it never shows the last one (`C140_first_day`, `C140_film`); the left key is an error when no colour field is given and takes away one day too many after a day without observations (`C140_left_no_color_refuted`, `C140_left_gap_refuted`).
- The interactive viewer divides the index under the pointer by 51: with contours of another size than 50 points it describes another eddy or fails (`C141_pointed_50_refuted`); with several datasets the note is hidden unless the last one is under the pointer (`C141_note`).
- EddyQuickCompare --path_out puts the files of `a/b.nc` and `a_b.nc` in the same folder, the last one replacing the files of the first one (`C142_same_folder_refuted`).
- The low pass filter of a curvilinear grid leaves out the nodes above its last row of boxes, which ends before 89 degrees north (`C143_pole_refuted`).
- A year and a month given as YYYYMM are refused, except November and December, which are read as the first and the second of January (`C134_month_refuted`).
- spectrum_lonlat takes the scaling out of its options before it calls itself for the reference, which is then computed with the default scaling (`C145_scaling_refuted`).
- spectrum_lonlat gives to welch what is stored under the mask (`C145_mask_refuted`), and fails when a column of the area holds nan only (`C145_hole`).
- spectrum_lonlat divides by the reference without a look at its wavelengths (`C145_reference_refuted`).
- to_netcdf of correspondences tests `not str or not bytes`, which is always true: each name is saved as "In memory file" (`C146_round_trip`), so files of correspondences cannot be joined (`C146_join_refuted`) and observations cannot be read again from them.
- A file of correspondences with a step without link is saved but cannot be loaded (`C146_empty_step`).
- merge_correspondance does not update the highest number of links, so the outcome may not be saved (`C146_join_save`).
- EddyIdentification --unregular fails with its default wavelength, and whenever the speeds are None: UnRegularGridDataset has neither these filters nor add_uv (`C147_unregular`).
- identification with one speed None looks for a variable named None (`C147_one_speed`); a height named u or v is overwritten when the speeds are computed (`C147_name_refuted`).
- Correspondances.to_netcdf stores the positions of the eddies waited for in single precision although they are computed in double: a resumed tracking may give other links than the same tracking without stop (`C148_resume_refuted`).
- Correspondances.load_compatible compares neither the options of the class nor the files: a tracking continued after the first identification files were removed links the wrong dates silently (`C149_files_refuted`), and one continued with other options mixes both (`C149_options_refuted`).
- eddies_tracking completes the name of the correspondences only once the whole run is done: a null or unknown name loses it (`C149_written`).
- event_timeline reads the height of a split by self[field] instead of parse_varname: with an array and the method "all" it fails on any network with a split (`C150_array_refuted`).
- MergeEddies with --add_rotation_variable overwrites the types of a file which already has both (`C151_rotation_refuted`), and with --include_var without track makes one track of each file (`C151_tracks_refuted`).
- MergeEddies reads files without their packing and writes the packing of the software: values of files packed otherwise change (`C151_packing_refuted`); basic variables missing in a later file are zeros (`C151_missing_refuted`).
- hasattr(eddies, "longitude_max") raises ValueError when the field is not there (`C152_hasattr_refuted`); include_vars with another name of the field than the one of the file loads zeros (`C152_include_refuted`); dates since another day are read as days since 1950 when their units are not understood (`C152_dates_refuted`).
- print(tracks): an unused number of track makes the last observation but one the end of a track, one distance too many is in the mean by track (`C153_gap_refuted`); a dataset of one row numbered from 1 cannot be displayed (`C153_raises_refuted`).
- append to a dataset without rows takes the array of the other one: both share their rows afterwards (`C154_shared_refuted`).
- the period of a dataset is kept from the first time it is asked and is wrong after rows are appended (`C154_period_stale_refuted`).
- print(network): network 0, the trash, is counted as a network and may be shown as the biggest one (`C156_trash_refuted`).
- to_netcdf: a dataset refused because of its number of samples has already replaced the attribute track_extra_variables of the file (`C157_refused_refuted`).
- from_netcdf: a dataset whose only extra variable is n (a name of one letter) cannot be read back (`C159_short_name_refuted`).
