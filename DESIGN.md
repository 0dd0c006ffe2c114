# Formal model of py-eddy-tracker in Rocq

The source of py-eddy-tracker is read as text in `/repo`. The functions that
decide track numbers, links, groups, indices and selections are rewritten as
total Gallina functions, branch by branch, and properties C01... are proved on
them for all inputs.

## Layout

- `rocq/theories/Xxx_model.v`: functions transcribed from the code, each with the file and lines it comes from.
- `rocq/theories/Xxx_proofs.v`: lemmas.
- `rocq/theories/Xxx_props.v`: property theorems, each followed by `Print Assumptions` and beside a non trivial example.
- `tools/props.py`, `tools/gen_docs.py`: metadata, generates `properties.jsonl`, `MANIFEST.json` and this file.
- `seeded/LOG.jsonl`: wrong programs tried against the theorems.

## Trusted base

- Coq 8.16.1 kernel (no kernel check switched off, `-Q theories Verif` only).
- `Print Assumptions` answers `Closed under the global context` for every theorem of MANIFEST.json, except those about real numbers (C120 and later ones whose note says so): these use axioms of the standard library: `ClassicalDedekindReals.sig_forall_dec`, `ClassicalDedekindReals.sig_not_dec` and `FunctionalExtensionality.functional_extensionality_dep` for all of them, and `Classical_Prop.classic` for those which need bounds of pi or the inverse tangent (`C120_formula_refuted`, C122 and later ones). Nothing else. vcheck, which looks at the whole of the libraries loaded, also lists the sealed definitions of the modules `Rdefinitions.RbaseSymbolsImpl`, `Rdefinitions.RinvImpl` and `ssrunder.Under_rel` of the standard library. No axiom is added by this development.
- The transcription from Python to Gallina, done by hand, with these conventions:
  - Python / numpy integers are `Z` or `nat`, unbounded, unless a fixed width matters to the property.
  - Floating point numbers are rationals `Q`, or real numbers `R` where roots and angles are needed; rounding is not modelled.
  - Arrays are lists; a read or a store out of range is an explicit error value, never a default.
  - numpy fancy assignment with repeated indices keeps the last write.
  - Exceptions are values. Loops are structural recursion or carry fuel with an explicit error when it runs out.
  - Python recursion limit, memory exhaustion, file system and netCDF/zarr encodings are not modelled.
- Calls to libraries (matplotlib contours, polygon intersection, spherical distance, numba compilation) are parameters of the theorems.
- The last section lists the functions which are modelled and those which are not.


## What was found in the code

Behaviours of the code met while modelling it, each with the theorem that shows it when there is one.

- Virtual observations, `segment_size` is a signed byte: with nb_virtual >= 128 a lost track is never forgotten (`C04_refuted`).
- A tracking run with virtual observations stopped after two links cannot be saved; stopped after one link it cannot be resumed (`C09_early_stop_refuted`).
- `merge_correspondance` can hand out numbers already used, fails for tracks reborn from a virtual observation, and reads the last step of the later run when the junction is its first date (`C10_refuted`).
- `Correspondances.longer_than` changes nothing when no track is long enough, `shorter_than` raises when none is short enough (`C08_selections_partition`).
- `flatten_line_matrix` stores one element past the end of its buffer (`C18_flatten_writes_past_end`).
- `window_index` reads past the end of the centre array in an exactly known case (`C15_window_reads_past_end`).
- `simplify` loses a single valid point in last position (`C66_single_last_point_lost_refuted`).
- With equal costs the association depends on the order of the eddies (`C67_ties_depend_on_order_refuted`).
- `distance_to_next` loses one step inside a track when the numbers do not start at 0 (the case after `compress_id`) or have a gap; `add_distance` raises unless the dataset has exactly one row (`C26_refuted`).
- `extract_toward_direction(west=True, delta_lon=v)` with v >= 0 never keeps anything (`C71_west_span_refuted`); it raises for a single observation whose number is not 0 (`C71_single_refuted`).
- `EddiesObservations.merge` shifts by the last stored number: an unsorted first dataset mixes tracks (`C69_unsorted_refuted`).
- `concatenate` raises when a dataset of the list is empty (`C24_empty_refuted`).
- `extract_ids` with a number above the largest one reads outside its tables (numba, unchecked); `full_path` or `remove_incomplete` on an empty dataset raises; `reject_virtual` modifies the mask of the caller and is ignored without `full_path`.
- The `datasets` list of a saved tracking run is not compared with the new list when resuming; runs reloaded from files all have the same file name, so joining them raises.
- `build_unique_array` and `new_numbering` give two identifiers to one segment when rows are not sorted, and read outside an empty array (`C43_unsorted_refuted`).
- `iter_on` on a sorted field with values under the first edge yields a group with bounds (last edge, first edge), with values from the last edge on it raises; an unsigned field is always taken as sorted (`C30_sorted_outside_refuted`, `C30_unsigned_refuted`).
- `align_on(all_ref=True)` raises for a sorted dataset (a slice has no dtype) and drops the bins after the last one of the other dataset (`C31_all_ref_sorted_refuted`, `C31_all_ref_end_refuted`).
- `merge_filters` unites two slices and compares negative and positive indices as numbers (`C32_two_slices_refuted`, `C32_negative_index_refuted`).
- `insert_observations` with an index after the end can lose the inserted row (`C33_outside_refuted`).
- `grid_box_stat` stores the statistic of a cell in the next occupied cell (`C34_own_cell_refuted`).
- `find_link` in both directions from several observations shares one mask between the searches and misses observations (`C39_both_from_several_refuted`).
- `relatives` with an order of 65535 or more selects the whole dataset (`C40_order_limit_refuted`).
- `remove_dead_end(recursive=n, mask=m)` does not pass the mask to the next passes (`C42_mask_lost_refuted`); it returns nothing, so `analysis_coherence`, which uses its result, fails.
- `sort` is not stable: numpy compares the remaining fields when the keys are equal (`C37_not_stable_refuted`).
- C45: when a segment splits from (or merges into) the last (first) row of the main one, the index -1 taken as the row after (before) the event marks the last row of the whole dataset (theorem `C45_event_without_main_refuted`).
- C74: a merging into the first row of a segment reports the row -1, i.e. the last row of the dataset, as the row before the merging (`C74_no_row_before_refuted`); births and deaths skip the first segment of any dataset when it has no link, even if it is not in network 0 (`C74_lonely_first_refuted`).
- C75: selecting a network number below the smallest one selects the networks counted from the end (`C75_outside_refuted`).
- C76: remove_trash tests the first segment only, so that a network 0 with a lonely first segment is removed with its linked segments (`C76_trash_refuted`).
- C77: a virtual first row makes fix_next_previous_obs write the next link of the last row, a virtual last row writes after the end (`C77_ends_refuted`).
- C46: the comparison of items stops with the shortest one (`C46_sizes_refuted`); identify_in only calls it with items of the same size.
- C47: the class of the cache is a singleton: a Network object built after another one with the other kind of contour works with the contours of the first kind (`C47_second_object_refuted`).
- C29: split_network returns dates cut to whole numbers of the median difference of dates (`C29_dates_refuted`); with a single date the step is the median of an empty array, nan, and the dates are undefined.
- insert_virtual (C48): inserted rows get track 0, `virtual[:] = mask` drops the flags of rows already virtual, in a network rows are inserted between two segments of the same network number, and links far from the gaps keep the row numbers of the old dataset.
- get_matrix (C49): the percentage is compared with the integer part stored in an 8 bits array, so an eddy receiving fewer particles can become the first target.
- keep_tracks_by_date (C79): wrong groups for unsorted unsigned track numbers, error on an empty dataset.
- particle_candidate_atlas (C80): the last start date whose end date is in the dataset is not used.
- reduce_size reads outside the array when all the points of a contour are equal (`C52_all_equal_refuted`), although its comment says this case is handled.
- poly_area is wrong for a contour without its closing point (`C53_open_refuted`).
- poly_indexs loses particles of contours wider than 180 degrees (`C55_wide_refuted`) and fails without particles; bbox_intersection can miss a pair when the widths sum to 180 degrees or more (`C56_wide_refuted`); poly_contain_poly refuses vertices far from the first one (`C84_wide_refuted`).
- convex accepts stars and depends on the direction when three vertices are in a line (`C85_refuted`); points on a vertical edge are inside or not according to the direction of the contour (`C81_boundary_refuted`).
- c_to_bounds gives decreasing bounds, and centres outside of their cell, for uneven centres (`C64_refuted`).
- compute_stencil uses values of the line before near the ends of a line which does not wrap (`C59_border_refuted`), and masked values when both sides are masked (`C59_both_masked_refuted`).
- advect and the three other schemes do not lose a particle south of the grid: row -1 is read as the last row, so it moves with the northern current (`C58_south_refuted`).
- the first particle in cell (-100000, -100000) of a grid which does not wrap stays in place instead of being lost (`C58_mark_refuted`).
- GridCollection.advect extrapolates in time when the start is between two dates, when releases do not divide the intervals, or when intervals are shorter than a release (`C62_refuted`); GridCollection.interp does for negative times (`C62_interp_refuted`).
- get_pixels_in finds nothing for a contour which touches the first row of a regular grid, because the window of rows is not clamped (`C63_south_refuted`, `C87_south_refuted`); it finds pixels on the wrong side for a contour across the western side of a grid which does not wrap (`C63_west_refuted`); around the earth it finds nothing for a contour of another turn away from the seam (`C63_other_turn_refuted`) or nearly as wide as the grid (`C63_wide_refuted`).
- interp_grid with max or min uses masked values (`C88_masked_refuted`) and returns an extreme constant without pixel (`C88_empty_refuted`).
- get_group does not check its thresholds: with low above high an eddy is in two families (`C65_thresholds_refuted`).
- Amplitude: the barycentre of a flat bottom may be outside the contour and gives the amplitude (`C89_plateau_refuted`); two lowest pixels which touch by a corner count twice (`C89_corner_refuted`).
- setup_coordinates with is_centered false makes one centre per bound: a grid around the earth has its first cell twice or is not circular (`C90_bounds_refuted`); equal centres are accepted (`C90_strict_refuted`); is_circular misses ends on both sides of a multiple of 360 (`C90_tolerance_refuted`).
- The search of the nearest contour of a level starts from the first vertex of the first contour of the level, whether or not its box holds the point: a contour beside the point can be the answer (`C91_outside_refuted`). Contours without any contour drawn fail on an undefined variable (`C91_empty_refuted`).
- find_wrapcut_path_and_join drops the open contours of the first meridian when open contours stay on both meridians, also when open contours are asked for (`C92_lost_refuted`).
- correct_close_events, after it moved the slice of a segment, writes from the merging to the stop of the moved slice: when close events meet, rows of unrelated segments stored in between take the number, and a segment gets two observations at the same time (`C93_refuted`).
- swap_track gives the number of the main segment to every long segment which splits from the same row (`C94_same_row_refuted`), and reads the cost of the last row of the dataset when the main segment stops at the splitting (`C94_last_row_refuted`).
- extract_with_area with the whole globe loses the observations on its western edge and at the poles (`C95_edge_refuted`).
- first_obs and last_obs use the observation number instead of the track number: after a selection which removes the start of a track, first_obs has no row for this track and last_obs none for the one before (`C96_cut_track_refuted`).
- mask_from_polygons fails when every observation is in one of the polygons before the last one: the contour test does not accept an empty list of points (`C97_all_inside_refuted`).
- bins_stat accepts the documented method "std" and returns the counts (`C98_std_refuted`).
- A filter on a circular grid fails when the kernel reaches further than the whole circle, which happens near the poles with long wavelengths (`C99_wide_refuted`).
- GridDataset.copy of a variable which has not been read yet loses its orientation: the copy is written transposed (`C101_copy_refuted`); GridDataset.grid ignores the indices once the variable is loaded (`C101_indices_refuted`); uv_for_advection with another height reuses the velocities of the first (`C101_height`).
- GridCollection.path gives its first time in days and the others in seconds, and no first time when t_init is given by position (`C102_units_refuted`); GridCollection.interp fails at the last date (`C102_last_refuted`).
- network_size of a number below the lowest network answers for another network, so `quick_compare` prints as 'trash obs' the size of some network when there is no network 0 (`C103_below_refuted`).
- numbering_network keeps the table of the former numbers once it has been asked for: network_size, network_slice and networks answer for the former numbers until the rows are sorted (`C104_stale`, `C104_stale_refuted`).
- The command EddyNetworkSubSetter fails with the option --remove_dead_end, because remove_dead_end gives back nothing (`C106_dead_end_refuted`), and its option --remove_trash has no effect, because the result of remove_trash is dropped (`C106_trash_refuted`).
- When the mean speed of the contour of an eddy is not a number, get_uavg never selects an inner contour, because no number is greater or equal to nan (`C107_selected`).
- label_contour_unused_which_contain_eddies compares the eddies with the wrong level for cyclones: a contour which holds two cyclones of the next level is never marked (`C108_cyclonic`, `C108_cyclonic_refuted`).
- match with its default minimum (cmin=0) also gives the pairs whose boxes cross although the contours have nothing in common, with score 0 (`C109_default_refuted`); re_reference_index fails on the default subset slice(None), because the slice has no start.
- close_tracks counts matching pairs and not observations (`C110_twice_refuted`), fails when the other atlas is sorted by time and begins before (`C110_before_refuted`) and when the crossing periods have no common day (`C110_no_day_refuted`). close_network calls range() on floating dates and fails for every atlas whose dates are floats.
- Loading a slice of rows without end fails (min(None, nb)) (`C111_open`); in netcdf a slice with a step fails or duplicates its first row (`C111_step`), although the code says that the step is not used; a slice with a negative start gives copies of the last row (`C111_negative_refuted`).
- Raw data read from a zarr file are multiplied by the factor of the units and those of a netcdf file are not (`C112_raw_units_refuted`).
- Tracks whose rotation is not known are named Cyclonic by sign_legend and titled Anticyclonic in the file, so they are read back as anticyclonic (`C113_unknown_refuted`).
- coherence does not compare the variables loaded: concatenate of two datasets loaded with different include_vars puts the values of one variable in the column of another one (`C114_concatenate_refuted`); add_fields fails after remove_fields (`C114_remove_add_refuted`); fields removed at load (remove_vars) which are basic elements remain as zeros (`C114_load`); load_from_zarr requires the attribute track_array_variables, which to_zarr does not write for a dataset without arrays.
- segment_coherence_forward and backward raise a ZeroDivisionError when the period lasts exactly n_days: the message of progress divides by the number of dates minus one (`C115_one_date_refuted`); n_days = 0 raises an UnboundLocalError in advect (`C115_null_refuted`).
- get_percentile_on_following_obs compares the numbers of segment without the network (`C116_networks_refuted`) and can write past the end of its buffer (numba does not check).
- Virtual eddies have a null date, and with the tracker of areas their contours stay where the eddy was lost although their centre moves (`C117_straight`).
- With the reference tracker an eddy of null amplitude (or radius) raises a division by zero as soon as another eddy is in its search ellipse (`C118_null_refuted`).
- The command EddyTracking fails after the save of the links, without any dataset, when no track is shorter than TRACK_DURATION_MIN, because shorter_than raises on an empty selection (`C119_no_short_track_refuted`); it fails as well without any track, and at the save of the links when virtual eddies are used with exactly three files (`C119_outputs`). browse_dataset_in with one of start_date and end_date only is an error (`C119_files`).
- The shape error is not the formula of its documentation when vertices are out of the circle: a square circumscribed to the disc has an error of 100 % instead of 27 % (`C120_formula_refuted`). The fit divides by zero when the best centre is a vertex, as for a square with a notch (`C120_centre_refuted`).
- local_to_coordinates with a reference on a pole gives the longitude of the reference to every point (`C122_pole_refuted`), so that a circle drawn around a pole is a part of a meridian.
- fit_circle_path keeps the circle with the contour: after a change of its vertices the old circle is returned (`C123_cache`).
- get_convex_hull never looks at its first vertex during the search: a hollow just before the leftmost vertex stays in the result, which is not convex (`C124_hollow_refuted`).
- get_convex_hull on a clockwise contour gives one vertex twice (`C124_clockwise_refuted`); the contour of tests/test_poly.py is clockwise, so test_convex_hull checks the convexity of one point (`C124_tested_refuted`).
- kernel_loess with an order over 1 has negative weights beyond the wave length, of which the size grows like the ninth power of the distance (`C125_loess`).
- fit_ellipse swaps its two axes when the origin of the coordinates is outside the ellipse, is not determined when the ellipse goes through the origin, and divides by zero for circles and ellipses along the axes (`C126_exact`, `C126_origin_refuted`, `C126_straight_refuted`).
- append keeps the tables of tracks already computed: iter_track, track_slice and nb_tracks then ignore the rows added (`C127_stale_refuted`, `C127_empty_refuted`).
- age has no value for tracks of one observation (0 / 0), although the documentation gives a range from 0 to 100 (`C127_age`).
- cost_function_common_area compares the boxes before moving the second contour by a turn: eddies on both sides of the change of longitude never have a common area (`C128_seam_refuted`).
- get_azimuth(equatorward=True) is positive for a track straight to the equator from the north and negative for a track straight to the pole in the south, against the documentation (`C129_sign_refuted`).
- compute_finite_difference refuses no whole number as a width (`not isinstance(schema, int) and schema < 1`): a negative one gives wrong slopes, and with wrap a width over the number of columns gives 0 (`C130_width_refuted`).
- write_file(zarr_flag=True) with a name without ".nc" writes a file of zarr that load_file reads as netcdf, and changes ".nc" inside the names of directories (`C131_zarr_refuted`).
- regrid with a new name keeps the name of the source in the description: write stores the field under the former name, or fails when the grid already has it (`C132_new_name_refuted`).
- identify_in (comparison of atlases of networks) raises when the sizes never decrease with the number of the network and the other atlas lacks one of them (`C133_refuted`), and leaves out of its result the networks greater than all those of the other (`C133_greatest_refuted`).
- compress_id of extract_with_mask sets an attribute of the new object and not its field: the items and the files keep the old numbers (`C23_stored_refuted`); in extract_longer_eddies it raises, the array of observations having no attribute track (`C23_longer_refuted`).
- A date given as YYYYMMDDHH or YYYYMMDDHHMM (option of the detection command, or in the name of a file) is accepted and read as another time, sometimes another day (`C134_hours_refuted`, `C134_minutes_refuted`).
- The tracking command reads no date for the files given without directory (a pattern in the current directory): the dates by which it sorts and checks them are uninitialised memory (`C135_directory_refuted`); the same for names with YYYYMMDDTHHMMSS, a form it accepts elsewhere (`C135_letter_refuted`).
- run_compare counts as "same NS" a network which has other segments when these are longer than all those of the other atlas (`C136_segments_refuted`), and raises when no network is common (`C136_error`).
- position_filter averages longitudes as plain numbers: a track from 359 to 1 is moved to 180 (`C137_cut_refuted`), and gives other values for the same track when it holds the first or last row of the dataset (`C137_place_refuted`).
- find_segments_relative takes the segment of the same number in the network of the first observation when the stopped observation is in another network (`C138_other_network_refuted`).
- The animation never shows the first date of the atlas, and the film made of it never shows the last one (`C140_first_day`, `C140_film`); the left key is an error when no colour field is given and takes away one day too many after a day without observations (`C140_left_no_color_refuted`, `C140_left_gap_refuted`).
- The interactive viewer divides the index under the pointer by 51: with contours of another size than 50 points it describes another eddy or fails (`C141_pointed_50_refuted`); with several datasets the note is hidden unless the last one is under the pointer (`C141_note`).
- EddyQuickCompare --path_out puts the files of `a/b.nc` and `a_b.nc` in the same folder, the last one replacing the files of the first one (`C142_same_folder_refuted`).
- The low pass filter of a curvilinear grid leaves out the nodes above its last row of boxes, which ends before 89 degrees north (`C143_pole_refuted`).
- A year and a month given as YYYYMM are refused, except November and December, which are read as the first and the second of January (`C134_month_refuted`).
- spectrum_lonlat takes the scaling out of its options before it calls itself for the reference, which is then computed with the default scaling (`C145_scaling_refuted`).
- spectrum_lonlat gives to welch what is stored under the mask (`C145_mask_refuted`), and fails when a column of the area holds nan only (`C145_hole`).
- spectrum_lonlat divides by the reference without a look at its wavelengths (`C145_reference_refuted`).
- to_netcdf of correspondences tests `not str or not bytes`, which is always true: each name is saved as "In memory file" (`C146_round_trip`), so files of correspondences cannot be joined (`C146_join_refuted`) and observations cannot be read again from them.
- A file of correspondences with a step without link is saved but cannot be loaded (`C146_empty_step`).
- merge_correspondance does not update the highest number of links, so the outcome may not be saved (`C146_join_save`).
- EddyIdentification --unregular fails with its default wavelength, and whenever the speeds are None: UnRegularGridDataset has neither these filters nor add_uv (`C147_unregular`).
- identification with one speed None looks for a variable named None (`C147_one_speed`); a height named u or v is overwritten when the speeds are computed (`C147_name_refuted`).
- Correspondances.to_netcdf stores the positions of the eddies waited for in single precision although they are computed in double: a resumed tracking may give other links than the same tracking without stop (`C148_resume_refuted`).
- Correspondances.load_compatible compares neither the options of the class nor the files: a tracking continued after the first identification files were removed links the wrong dates silently (`C149_files_refuted`), and one continued with other options mixes both (`C149_options_refuted`).
- eddies_tracking completes the name of the correspondences only once the whole run is done: a null or unknown name loses it (`C149_written`).
- event_timeline reads the height of a split by self[field] instead of parse_varname: with an array and the method "all" it fails on any network with a split (`C150_array_refuted`).
- MergeEddies with --add_rotation_variable overwrites the types of a file which already has both (`C151_rotation_refuted`), and with --include_var without track makes one track of each file (`C151_tracks_refuted`).
- MergeEddies reads files without their packing and writes the packing of the software: values of files packed otherwise change (`C151_packing_refuted`); basic variables missing in a later file are zeros (`C151_missing_refuted`).
- hasattr(eddies, "longitude_max") raises ValueError when the field is not there (`C152_hasattr_refuted`); include_vars with another name of the field than the one of the file loads zeros (`C152_include_refuted`); dates since another day are read as days since 1950 when their units are not understood (`C152_dates_refuted`).
- print(tracks): an unused number of track makes the last observation but one the end of a track, one distance too many is in the mean by track (`C153_gap_refuted`); a dataset of one row numbered from 1 cannot be displayed (`C153_raises_refuted`).
- append to a dataset without rows takes the array of the other one: both share their rows afterwards (`C154_shared_refuted`).
- the period of a dataset is kept from the first time it is asked and is wrong after rows are appended (`C154_period_stale_refuted`).
- print(network): network 0, the trash, is counted as a network and may be shown as the biggest one (`C156_trash_refuted`).
- to_netcdf: a dataset refused because of its number of samples has already replaced the attribute track_extra_variables of the file (`C157_refused_refuted`).
- from_netcdf: a dataset whose only extra variable is n (a name of one letter) cannot be read back (`C159_short_name_refuted`).


## Properties: what is modelled and how it is proved

### C01 Association between two dates is one-to-one, allowed and maximal

When the default tracker associates the eddies of two consecutive dates, each eddy of either date takes part in at most one returned link, every returned link joins a pair whose cost is not masked, and no allowed pair remains with both ends free.

- Code: src/py_eddy_tracker/observations/observation.py: EddiesObservations.solve_simultaneous
- Approach: Model the iterative mutual-minimum elimination on rational matrices with masks; invariant on locked rows/columns over the iteration.
- Status: proved
- Theorems: `C01_association_one_to_one`
- Note: Costs are exact rationals; a masked cell is None.

### C02 Links are taken greedily by cost and the solver terminates

Every allowed pair that is not returned is beaten: one of its two eddies is linked by a returned pair whose cost is at most the cost of the pair. The iteration always ends without reaching its iteration cap.

- Code: src/py_eddy_tracker/observations/observation.py: EddiesObservations.solve_simultaneous
- Approach: Measure argument on the number of free allowed pairs; blocking-pair argument on the order of selection.
- Status: proved
- Theorems: `C02_association_greedy`
- Note: tracking returns None at the iteration cap, so the theorem also shows the cap is never reached.

### C03 A track number never designates two eddies of one date

During a whole tracking run, for any sequence of one-to-one links, the track numbers stored for one time step are pairwise distinct, a link starting from an observation reached by the previous step keeps that observation's number, and a number handed to a new track was never used before in the run.

- Code: src/py_eddy_tracker/tracking.py: Correspondances.store_correspondance; src/py_eddy_tracker/tracking.py: Correspondances.id_generator; src/py_eddy_tracker/tracking.py: Correspondances.recense_dead_id_to_extend; src/py_eddy_tracker/tracking.py: Correspondances.track
- Approach: State machine of Correspondances with the links as arbitrary one-to-one inputs; invariant by induction on the run.
- Status: proved
- Theorems: `C03_track_numbers`, `C03_solver_is_one_to_one`
- Note: The association is any function returning one-to-one links; the second theorem shows the actual solver is one.

### C04 A lost track is remembered at most the requested number of steps

A track that loses its eddy is extrapolated during at most nb_virtual consecutive dates; a track found again after k missing dates records a virtual length of exactly k, with 1 <= k <= nb_virtual; a track missing longer never gets another observation. This holds up to nb_virtual = 127; from 128 on the size counter, a signed byte, wraps around and lost tracks are never forgotten.

- Code: src/py_eddy_tracker/tracking.py: Correspondances.recense_dead_id_to_extend; src/py_eddy_tracker/observations/observation.py: EddiesObservations.propagate; src/py_eddy_tracker/tracking.py: Correspondances.store_correspondance
- Approach: Same state machine; invariant relating segment_size to the number of steps since the last real observation.
- Status: proved
- Theorems: `C04_virtual_memory`, `C04_refuted`
- Note: The second theorem is the counterexample at nb_virtual = 128 (signed byte).

### C05 The length of a track equals its time span

After a tracking run the number of observations reserved for a track equals the number of dates between its first and its last eddy, both included, and in the merged output the eddy seen at date t sits exactly t - t_first positions after the first one.

- Code: src/py_eddy_tracker/tracking.py: Correspondances.prepare_merging; src/py_eddy_tracker/tracking.py: Correspondances.merge
- Approach: Induction over the stored correspondences using the invariant of C04; slot offsets as partial sums.
- Status: proved
- Theorems: `C05_length_is_time_span`

### C06 Merging writes each slot of the output at most once and only inside its track

When correspondences are merged into trajectories, two different observations are never written in the same row, each track occupies one contiguous block, blocks are in track order without gap, and rows not written are exactly the virtual ones.

- Code: src/py_eddy_tracker/tracking.py: Correspondances.merge; src/py_eddy_tracker/tracking.py: Correspondances.prepare_merging
- Approach: Model of the cursors i_current; disjointness of written slots by induction.
- Status: proved
- Theorems: `C06_merge_rows`
- Note: Also gives the row of each association cost.

### C07 Every observation is either in a track or unused, never both

The observations returned as untracked for a date are exactly those that no link of the run starts from or arrives at, in increasing order, so tracked and untracked observations partition each date.

- Code: src/py_eddy_tracker/tracking.py: Correspondances.get_unused_data; src/py_eddy_tracker/generic.py: reverse_index
- Approach: Model index selection per date and prove set equality.
- Status: proved
- Theorems: `C07_unused_is_complement`

### C08 Short and long selections partition the tracks

Selecting the tracks of at least n observations and those of fewer than n observations splits the tracks in two complementary families; kept tracks are renumbered 0,1,2,... in their original order and keep exactly their links, so recounting and merging the selection gives their blocks unchanged. When no track is long enough the first selection silently keeps everything, and when none is short enough the second one raises.

- Code: src/py_eddy_tracker/tracking.py: Correspondances.longer_than; src/py_eddy_tracker/tracking.py: Correspondances.shorter_than
- Approach: Model mask, translation table and filtering; prove order isomorphism and complement.
- Status: proved
- Theorems: `C08_selections_partition`, `C08_selection_keeps_tracks`

### C09 Resuming a saved run gives the same result as an uninterrupted run

Stopping a tracking run after any date, saving its state, reloading it and continuing with the remaining dates gives the same correspondences, track numbers and virtual observations as a run over all the dates at once, provided no step is empty and at least three links exist when virtual observations are used; with virtual observations a run stopped after two links cannot be saved and one stopped after a single link cannot be resumed.

- Code: src/py_eddy_tracker/tracking.py: Correspondances.load_state; src/py_eddy_tracker/tracking.py: Correspondances.to_netcdf; src/py_eddy_tracker/tracking.py: Correspondances.from_netcdf; src/py_eddy_tracker/tracking.py: Correspondances.track
- Approach: Relate the state after replay with the state of the uninterrupted machine, and refute the cases where too few dates were processed.
- Status: proved
- Theorems: `C09_resume_equals_full_run`, `C09_early_stop_refuted`
- Note: The netCDF encoding is taken as faithful. previous2_obs is not compared: the next step discards it.

### C10 Two overlapping runs can be joined only under stated conditions

Joining a later run to an earlier one renumbers the tracks of the later run so that tracks alive at the junction keep their number and new tracks get fresh distinct numbers, when every number of the later run below the junction maximum is alive at the junction and the last number of the later run was created after the junction.

- Code: src/py_eddy_tracker/tracking.py: Correspondances.merge_correspondance
- Approach: Model the translate table with its UINT32_MAX sentinel; prove injectivity under the condition, refute it without.
- Status: proved
- Theorems: `C10_join`, `C10_refuted`
- Note: The second theorem shows what happens outside the stated conditions.

### C11 Reference tracker: conflicts keep the eddy of greatest amplitude

With the Chelton-like tracker, links competing for the same eddy are reduced to one, the one whose origin has the greatest amplitude; other links are unchanged, so the result is one-to-one on the arrival side.

- Code: src/py_eddy_tracker/featured_tracking/old_tracker_reference.py: CheltonTracker.post_process_link; src/py_eddy_tracker/featured_tracking/old_tracker_reference.py: CheltonTracker.solve_function
- Approach: Model unique/duplicate detection and argmax selection; list induction.
- Status: proved
- Theorems: `C11_chelton_links`
- Note: Exact set of returned links, including the first step (one link per origin) and ties.

### C12 Index tables of a sorted label array tile it exactly

For a non decreasing label array, the start/stop table gives for each label between the smallest and the largest the exact range of positions carrying it, empty for absent labels, and ranges are adjacent and cover the whole array.

- Code: src/py_eddy_tracker/generic.py: build_index
- Approach: Induction on the array with the invariant of the fill loop.
- Status: proved
- Theorems: `C12_index_tables_tile`

### C13 Complement of an index list

The complement index list contains each position of the range not listed, once, in increasing order, whatever the order and repetitions of the list.

- Code: src/py_eddy_tracker/generic.py: reverse_index
- Approach: Mask update model, set equality.
- Status: proved
- Theorems: `C13_reverse_index_is_complement`

### C14 Cumulative distance restarts at each track

The cumulative field at a position equals the sum of the field over the positions of the same uninterrupted run of track numbers up to it, whatever the first track number is.

- Code: src/py_eddy_tracker/generic.py: cumsum_by_track
- Approach: Loop invariant on the accumulator.
- Status: proved
- Theorems: `C14_cumsum_restarts`
- Note: Rational sums; float rounding is not modelled.

### C15 Time windows select exactly the expected observations

The window table gives for each centre (in increasing order) exactly the sorted observations with centre - half < x <= centre + half.

- Code: src/py_eddy_tracker/generic.py: window_index
- Approach: Two-cursor loop invariant; out of range read modelled explicitly.
- Status: proved
- Theorems: `C15_window_exact`, `C15_window_reads_past_end`
- Note: argsort is any permutation that sorts. The second theorem gives the exact condition of the read past the end of the centre array.

### C16 Longitude wrapping is a canonical representative

Wrapping longitudes with a reference gives values in [ref, ref+360), equal to the input modulo 360, and wrapping twice is the same as wrapping once; wrapped values do not depend on the turn the input was expressed in.

- Code: src/py_eddy_tracker/generic.py: wrap_longitude; src/py_eddy_tracker/observations/tracking.py: TrackEddiesObservations.normalize_longitude
- Approach: Exact rational arithmetic with floor.
- Status: proved
- Theorems: `C16_wrap_canonical`, `C16_wrap_idempotent`, `C16_cut_draws_same_segments`
- Note: Exact arithmetic. The cut variant needs steps below 360 degrees.

### C17 Line splitting keeps every point and separates every group

Splitting a line on a label inserts exactly one gap at each label change, nowhere else, and removing the gaps gives back the input points in order.

- Code: src/py_eddy_tracker/generic.py: split_line
- Approach: List induction on the write cursor.
- Status: proved
- Theorems: `C17_split_line_exact`

### C18 Flattening a matrix of lines stays inside its buffer

Flattening n lines of m points separated by gaps fills exactly n*m + n - 1 cells in order. The code also writes one cell past the end.

- Code: src/py_eddy_tracker/generic.py: flatten_line_matrix
- Approach: Checked-store model; prove content and exhibit the out-of-range store for every non degenerate shape.
- Status: proved
- Theorems: `C18_flatten_content`, `C18_flatten_writes_past_end`
- Note: The second theorem is a defect of the code: one store past the end of the output buffer.

### C19 Run lengths of a boolean mask

The value at a position is the length of the uninterrupted run of true values ending there, and 0 on false positions.

- Code: src/py_eddy_tracker/generic.py: count_consecutive
- Approach: Loop invariant.
- Status: proved
- Theorems: `C19_run_lengths`

### C20 Bilinear interpolation of a point does not depend on the other points

The value at a point is a function of this point, the grid and the mask, although corners are kept from one point to the next; it is missing exactly when its cell is out of the grid or has a masked corner, is between the smallest and the largest value of the grid, reproduces a + b x + c y + d x y exactly, and does not change with turns of longitude on a circular grid. The nearest interpolation gives the value of a node at most half a step away on each axis.

- Code: src/py_eddy_tracker/generic.py: interp2d_bilinear
- Approach: Cache invariant; convexity on rationals.
- Status: proved
- Theorems: `C20_alone`, `C20_between`, `C20_exact`, `C20_turn`, `C20_missing`, `C20_nearest`
- Note: exact rationals; points of one cell far out of the grid, (-100000000, -10000000), are excluded: corners not set are read there when it is the first point

### C21 Track index tables give exactly the observations of a track

For a dataset stored track after track, first position and count of each track delimit exactly its observations, absent tracks have count 0, and selecting a set of tracks selects exactly their observations.

- Code: src/py_eddy_tracker/observations/tracking.py: compute_index; src/py_eddy_tracker/observations/tracking.py: compute_mask_from_id; src/py_eddy_tracker/observations/tracking.py: TrackEddiesObservations.get_mask_from_id
- Approach: Loop invariant of the index pass.
- Status: proved
- Theorems: `C21_index_tables`, `C21_selected_tracks`, `C21_not_grouped_refuted`
- Note: Also for tracks grouped but not sorted. The third theorem shows why they must be grouped.

### C22 Extraction options select whole tracks

Extraction with full_path returns exactly the observations of tracks having at least one selected observation, with remove_incomplete exactly those of fully selected tracks; observations keep their order and values.

- Code: src/py_eddy_tracker/observations/tracking.py: TrackEddiesObservations.extract_with_mask
- Approach: Composition of the index model with mask extraction.
- Status: proved
- Theorems: `C22_plain`, `C22_full_path`, `C22_remove_incomplete`
- Note: Includes reject_virtual, which the code applies only with full_path.

### C23 Compressed track numbers are a renumbering

With compress_id the attribute track of the extracted dataset is renumbered 1..k: two observations have the same new number iff they had the same number, and the order of tracks is kept. But the field track of the observations (items of the dataset, files) keeps the old numbers. extract_longer_eddies without compress_id gives exactly the observations of the tracks of at least nb_min observations; with compress_id, its default, it is always an error.

- Code: src/py_eddy_tracker/observations/tracking.py: TrackEddiesObservations.extract_with_mask; src/py_eddy_tracker/observations/tracking.py: TrackEddiesObservations.extract_longer_eddies
- Approach: Rank function on sorted unique list.
- Status: proved
- Theorems: `C23_compressed_numbers`, `C23_stored_refuted`, `C23_longer`, `C23_longer_refuted`
- Note: the attribute hides the field because the class of groups has no __slots__

### C24 Concatenation never merges tracks of different datasets

After concatenation of non empty datasets two observations share a track number iff they come from the same dataset and shared it there, and rows are kept in order.

- Code: src/py_eddy_tracker/observations/tracking.py: TrackEddiesObservations.concatenate; src/py_eddy_tracker/observations/observation.py: EddiesObservations.concatenate
- Approach: Offset invariant by induction on the list.
- Status: proved
- Theorems: `C24_concatenation`, `C24_empty_refuted`
- Note: The second theorem: an empty dataset makes the call fail.

### C25 Selection by track length keeps exactly the tracks in the bounds

Selecting on length bounds keeps an observation iff the number of observations of its track is in the bounds, a bound equal to -1 being ignored; the two halves given by a threshold partition the dataset.

- Code: src/py_eddy_tracker/observations/tracking.py: TrackEddiesObservations.extract_with_length
- Approach: Mask repeat model.
- Status: proved
- Theorems: `C25_length_bounds`, `C25_bad_bounds`, `C25_partition`

### C26 Distance to the next observation never crosses tracks

The distance is 0 at the last observation of each track and the distance to the following observation elsewhere, when track numbers start at 0 and have no gap. Otherwise one step is also lost: the one before the last row when the numbers do not start at 0, the one before that when a number from 1 on is not used.

- Code: src/py_eddy_tracker/observations/tracking.py: TrackEddiesObservations.distance_to_next; src/py_eddy_tracker/observations/tracking.py: TrackEddiesObservations.add_distance
- Approach: Model negative index wrap; proof under contiguity, refutation with a gap.
- Status: proved
- Theorems: `C26_distance_to_next`, `C26_distance_exact`, `C26_refuted`
- Note: The second theorem gives the exact result for any numbering, with the steps lost by the code.

### C27 Median filter uses exactly the window of the same track

The filtered value at an observation is the median of the values of the observations of the same track whose abscissa is within the half window.

- Code: src/py_eddy_tracker/observations/tracking.py: track_median_filter
- Approach: Two-cursor loop invariant.
- Status: proved
- Theorems: `C27_median_window`, `C27_median`
- Note: The first theorem holds for any function in place of the median.

### C28 Loess filter averages only observations of the same track

The filtered value is a weighted mean with weights in [0,1] of values of the same track inside the half window, hence between their minimum and maximum; the very first and very last rows of the dataset are never used for other rows.

- Code: src/py_eddy_tracker/observations/tracking.py: track_loess_filter
- Approach: Loop invariant of the two while loops; refutation of independence from other tracks.
- Status: proved
- Theorems: `C28_loess_weighted_mean`, `C28_loess_bounds`
- Note: Exact arithmetic.

### C29 Network splitting gives chains ordered in time

Splitting groups in segments gives every observation of a group a segment number from 1 up, in the order of the first rows. The next of an observation is the one of best cost on the nearest later date within the window that has a candidate. The previous of an observation which is the next of some is, among those, the one of best cost; of an observation which is the next of none it is the best one on the nearest earlier date. Two observations are consecutive in a segment exactly when each is linked to the other, so a segment has at most one observation per date. Rows of group 0 keep segment 0 and no link. The returned dates are whole numbers of time steps: they are not the dates given when these are not multiples of the step, which is the median difference of successive dates.

- Code: src/py_eddy_tracker/observations/tracking.py: TrackEddiesObservations.set_tracks; src/py_eddy_tracker/observations/tracking.py: TrackEddiesObservations.follow_obs; src/py_eddy_tracker/observations/tracking.py: TrackEddiesObservations.get_previous_obs; src/py_eddy_tracker/observations/tracking.py: TrackEddiesObservations.get_next_obs
- Approach: State machine over ids arrays with the overlap as oracle; chain invariant.
- Status: proved
- Theorems: `C29_group`, `C29_one_per_date`, `C29_split_network`, `C29_timestep`, `C29_dates_refuted`
- Note: the overlap of two contours, the bounding box test and the rounding to the precision of the array are parameters; the cost is assumed positive or null and the rounding monotone, idempotent and positive

### C30 Iterating on a field visits each observation once

Iterating on a field with bins, sorted with all its values inside the bins or signed and not sorted with some value inside, visits every observation whose value is inside the bins exactly once, in the group of its bin, and no other; with the default bins every observation is visited once. Outside these cases: a sorted field with values outside gives a meaningless group or raises, an unsigned field not sorted is cut wrongly, a field not sorted with no value inside raises.

- Code: src/py_eddy_tracker/observations/observation.py: EddiesObservations.iter_on; src/py_eddy_tracker/observations/observation.py: numba_digitize; src/py_eddy_tracker/generic.py: build_index
- Approach: Digitize + stable sort + index table model.
- Status: proved
- Theorems: `C30_iter_on_bins`, `C30_iter_on_default`, `C30_sorted_outside_refuted`, `C30_unsorted_outside_refuted`, `C30_unsigned_refuted`
- Note: Values and bins are rationals; numpy's argsort is any function that sorts.

### C31 Aligned iteration pairs only identical bins

Iterating on two datasets at once with common bins yields exactly the bins where both have observations, with the observations of each in that bin; with all_ref it yields also the bins of the first dataset that precede the last one of the second, with no observation of the second. With all_ref later bins are dropped and a sorted first dataset raises.

- Code: src/py_eddy_tracker/observations/observation.py: EddiesObservations.align_on
- Approach: Two-iterator merge model; refutation of completeness of all_ref.
- Status: proved
- Theorems: `C31_align_on`, `C31_all_ref_end_refuted`, `C31_all_ref_sorted_refuted`, `C31_other_outside`
- Note: Common bins given; with the default bins each dataset has its own origin.

### C32 Filters combined in a selection are intersected

Combining any number of filters (absent, slice, mask, index list) selects exactly the observations selected by all of them, provided the last two non trivial ones are not both slices and indices count from the start; two slices select the union.

- Code: src/py_eddy_tracker/observations/observation.py: EddiesObservations.__merge_filters__; src/py_eddy_tracker/observations/observation.py: EddiesObservations.merge_filters
- Approach: Sum type of filters with denotation as index sets.
- Status: proved
- Theorems: `C32_merge_filters`, `C32_two_slices_refuted`, `C32_negative_index_refuted`
- Note: Slices with a step are not modelled.

### C33 Insertion of observations keeps the others in order

Inserting observations at an index of the dataset (counted from the start or from the end) keeps all previous rows in their order around the inserted block; an index outside can lose the inserted row and duplicate another.

- Code: src/py_eddy_tracker/observations/observation.py: EddiesObservations.insert_observations
- Approach: List splice model.
- Status: proved
- Theorems: `C33_insert`, `C33_outside_refuted`

### C34 Statistic boxes receive their own observations

Each observation falls in the cell it lies in (modulo the width on a circular grid) or raises an error. The box statistic should store in a cell the statistic of the observations of that cell. The code stores in each occupied cell but the lowest the statistic of the occupied cell just before it, and never stores the statistic of the highest one; on a circular grid latitudes outside the grid are not refused.

- Code: src/py_eddy_tracker/observations/observation.py: grid_box_stat
- Approach: Run-length loop model; refutation and exact characterisation of what is stored.
- Status: proved
- Theorems: `C34_grid_box_stat`, `C34_cells`, `C34_box_statistic`, `C34_own_cell_refuted`
- Note: The claim of the documentation is refuted; the theorem says exactly what is stored.

### C35 Digitisation agrees with half open bins

The bin number given to a value is the number of bin edges not greater than the value, for increasing edges.

- Code: src/py_eddy_tracker/observations/observation.py: numba_digitize
- Approach: Loop model, induction.
- Status: proved
- Theorems: `C35_digitize`

### C36 Groups are the connected components of the interactions

After grouping, two observations have the same non zero group iff a chain of interactions joins them, and an observation without interaction has group 0. The numbers of the groups do not depend on the order in which the couples of groups to join were met.

- Code: src/py_eddy_tracker/observations/network.py: Network.get_group_array; src/py_eddy_tracker/observations/network.py: Network.group_translator; src/py_eddy_tracker/observations/network.py: apply_replace
- Approach: Model vectorised assignments with last-write-wins, union-find translator; soundness and completeness.
- Status: proved
- Theorems: `C36_groups_are_components`, `C36_group_observations`, `C36_translator_order`
- Note: The geometric comparison of two dates is any function returning index lists (see C56, C57).

### C37 Sorting a network preserves its links

Sorting is a permutation of the rows that puts them in the order of the sort keys and renames the next and previous indices so that each row still points to the same row; absent links stay absent, and the table returned translates any other index. Building a network from the result of split_network renames its links in the same way. The sort is not stable: rows equal on the keys are put in the order of their other fields.

- Code: src/py_eddy_tracker/observations/network.py: NetworkObservations.sort; src/py_eddy_tracker/observations/network.py: NetworkObservations.from_split_network
- Approach: Permutation and inverse translate table.
- Status: proved
- Theorems: `C37_sort`, `C37_from_split_network`, `C37_not_stable_refuted`
- Note: Keys of the sort are among network, segment and time.

### C38 Extraction from a network never leaves a dangling link

After extraction with any mask or slice every link of a kept row points to the row holding the same target when it is kept and is absent otherwise; no link points outside the dataset.

- Code: src/py_eddy_tracker/observations/network.py: NetworkObservations.extract_with_mask; src/py_eddy_tracker/observations/network.py: NetworkObservations.extract_light_with_mask
- Approach: Translate table model.
- Status: proved
- Theorems: `C38_extract_with_mask`, `C38_extract_with_slice`
- Note: Slices with positive bounds and step 1.

### C39 Following water forward selects exactly the reachable observations

Searching links forward from observations selects exactly the observations reachable by following segments in time and links at their ends, and backward exactly those that lead to one of them; searching both directions selects their union from one observation when time grows along links, but from several observations may miss some.

- Code: src/py_eddy_tracker/observations/network.py: NetworkObservations.find_link
- Approach: DFS with suffix masks; soundness and completeness; refutation for both directions.
- Status: proved
- Theorems: `C39_find_link`, `C39_both_from_one`, `C39_both_from_several_refuted`

### C40 Relatives are the segments at bounded distance

Extracting relatives at order k < 65535 selects exactly the segments joined to a starting segment by at most k merging or splitting connections (at 65535 it selects everything); the relative order of a segment is the least such k, -1 when there is none.

- Code: src/py_eddy_tracker/observations/network.py: NetworkObservations.relatives; src/py_eddy_tracker/observations/network.py: NetworkObservations.segment_relative_order
- Approach: Relaxation DFS; distance equals graph distance.
- Status: proved
- Theorems: `C40_relatives`, `C40_relative_order`, `C40_order_limit_refuted`

### C41 Dissociation gives one network per connected component

After dissociation two observations are in the same network iff a chain of merging and splitting connections joins their segments; networks are numbered without gap from 0 or 1, rows are sorted, keep their other columns and their links; when connections stay inside networks no two segments become one.

- Code: src/py_eddy_tracker/observations/network.py: NetworkObservations.tag_segment; src/py_eddy_tracker/observations/network.py: NetworkObservations.dissociate_network; src/py_eddy_tracker/observations/network.py: NetworkObservations.connexions
- Approach: DFS tagging; soundness and completeness.
- Status: proved
- Theorems: `C41_dissociate`, `C41_segments_kept`

### C42 Removing dead ends keeps no link to a removed observation

Each pass of the removal of dead ends removes exactly the segments that are short, have fewer than two neighbour segments and hold no observation of the protection mask; their observations are moved to network 0 without any link, the others keep their columns and their links to observations not removed, and no link leads to a removed one. The mask only protects in the first pass: with recursion a protected segment can be removed.

- Code: src/py_eddy_tracker/observations/network.py: NetworkObservations.remove_dead_end; src/py_eddy_tracker/observations/network.py: NetworkObservations.segment_mask
- Approach: Mask model with Python -1 indexing; refutation: the protection mask is lost on recursion.
- Status: proved
- Theorems: `C42_remove_dead_end`, `C42_no_link_to_removed`, `C42_mask_lost_refuted`
- Note: The costs of the links are not modelled; times are integers.

### C43 Unique segment identifiers identify (network, segment) pairs

For rows sorted by network then segment the unique identifier of two rows is equal iff both identifiers are equal, identifiers start at 0, are non decreasing and have no gap; renumbering has the same property.

- Code: src/py_eddy_tracker/observations/network.py: build_unique_array; src/py_eddy_tracker/observations/network.py: new_numbering
- Approach: Loop invariant.
- Status: proved
- Theorems: `C43_unique_ids`, `C43_new_numbering`, `C43_unsorted_refuted`

### C44 Grouping rows by group is a stable permutation

The new position computed for each row is a permutation that sorts rows by group and keeps their order inside a group.

- Code: src/py_eddy_tracker/observations/network.py: get_next_index; src/py_eddy_tracker/observations/network.py: Network.build_dataset
- Approach: Counting sort correctness.
- Status: proved
- Theorems: `C44_next_index_stable_sort`, `C44_build_dataset`

### C45 Events around a merge or split select a bounded time neighbourhood

Following the links from given observations marks, besides the marks already there, exactly these observations and those met along the links as long as the time distance to the start is below the limit. The mask of the observations close to events is the union, for every merging, of the path back on the main segment, of the path back on the segment that stops and of the path forward, and for every splitting of the path forward on the main segment, of the path forward on the segment that starts and of the path back. When an event has no row before or after it on the main segment, the last row of the dataset is marked instead.

- Code: src/py_eddy_tracker/observations/network.py: mask_follow_obs; src/py_eddy_tracker/observations/network.py: NetworkObservations.mask_obs_close_event
- Approach: Fuelled loop and path characterisation.
- Status: proved
- Theorems: `C45_follow`, `C45_close_events`, `C45_event_without_main_refuted`
- Note: mask_follow_obs and mask_obs_close_event with the events they are computed from. The main path of an event must exist (the missing case is the refuted one).

### C46 Comparison of two atlases returns equal items, each once

Comparing items (networks or segments) of the same size of two atlases gives for each item of the first either an item of the second with the same positions up to order, each item of the second being given at most once, or absent, and absent only if every item of the second with the same positions is given to an earlier item. Items of different sizes are equal for the comparison when the shortest agrees.

- Code: src/py_eddy_tracker/observations/network.py: same_position; src/py_eddy_tracker/observations/network.py: NetworkObservations.identify_in
- Approach: Nested loops with a used mask.
- Status: proved
- Theorems: `C46_same_position`, `C46_sizes_refuted`
- Note: same_position with the items built as identify_in builds them for one size; the grouping of items by size is align_on (C31), with its defects.

### C47 The contour cache is transparent

Loading the contours of a file through the bounded cache always returns the contours of that file, for any sequence of requests including failing ones, and the cache never holds more than buffersize + 1 files, each once and with its own contours; a file held is not read again and only the oldest file is dropped. Parameters given to a second object are ignored, even the kind of contour; a negative size makes requests fail.

- Code: src/py_eddy_tracker/observations/network.py: Buffer.load_contour; src/py_eddy_tracker/observations/network.py: Singleton
- Approach: FIFO cache state machine.
- Status: proved
- Theorems: `C47_transparent`, `C47_bounded`, `C47_one_request`, `C47_first_in_first_out`, `C47_negative_size_refuted`, `C47_second_object_refuted`
- Note: Files do not change during the run; requests given a dataset object are passed through and not modelled.

### C48 Virtual rows inserted in a dataset keep the original rows

Inserting missing observations keeps every original row in order with its values, puts in each gap between two consecutive rows of a track the number of missing time steps (the step being the median difference of dates), flags exactly the inserted rows and spaces linearly their dates and other values. The code gives the inserted rows the track number 0, drops the flags of rows which were already virtual, ignores segments in a network, and there only the links around the gaps are renumbered: the other links keep the old row numbers.

- Code: src/py_eddy_tracker/observations/groups.py: get_missing_indices; src/py_eddy_tracker/observations/groups.py: GroupEddiesObservations.insert_virtual; src/py_eddy_tracker/observations/groups.py: GroupEddiesObservations.filled_by_interpolation; src/py_eddy_tracker/observations/network.py: fix_next_previous_obs
- Approach: Index arithmetic of insertion; refutation on track and next/previous.
- Status: proved
- Theorems: `C48_insert_virtual`, `C48_links`, `C48_track_refuted`, `C48_flags_refuted`, `C48_segments_refuted`, `C48_links_refuted`
- Note: dates and values are exact rationals; fields which are not interpolated are given separately

### C49 Particle targets are the two best

For each start eddy the first target is the first of those receiving the largest number of particles and the second target the first of the largest among the others; percentages are in (0,100], sum to at most 100, and absent targets are -1 with 0; integer parts are kept at the end. When the targets are written directly in the network, percentages are compared with integer parts already stored, so the first target is only the one of largest integer percentage. Merging the results of a date writes the rows of that date only, with targets renamed in the full dataset.

- Code: src/py_eddy_tracker/observations/groups.py: get_targets; src/py_eddy_tracker/observations/groups.py: get_matrix; src/py_eddy_tracker/observations/groups.py: GroupEddiesObservations.merge_particle_result
- Approach: Fold invariant over columns; refutation for the int8 variant.
- Status: proved
- Theorems: `C49_targets`, `C49_step`, `C49_matrix`, `C49_matrix_refuted`, `C49_merge`
- Note: counts and percentages are exact; integer parts as stored in the 8 bits arrays

### C50 Period selection

Selecting a period with positive bounds keeps exactly the observations within the bounds, a zero bound being ignored and a negative bound being counted from the corresponding end of the dataset.

- Code: src/py_eddy_tracker/observations/tracking.py: TrackEddiesObservations.extract_with_period; src/py_eddy_tracker/observations/network.py: NetworkObservations.get_mask_with_period
- Approach: Mask model.
- Status: proved
- Theorems: `C50_period`
- Note: Dates are integers. The same code is in the network class.

### C51 A point outside the bounding box of a contour is outside the contour

The winding number of a contour is 0 for each point outside its bounding box, so bounding box prefilters never drop an inside point.

- Code: src/py_eddy_tracker/poly.py: winding_number_poly; src/py_eddy_tracker/poly.py: is_left
- Approach: Telescoping of crossings over the closed contour on rationals.
- Status: proved
- Theorems: `C51_outside_box`, `C51_inside_in_box`
- Note: coordinates are exact rationals

### C52 The winding number does not depend on the start vertex or repeated closing vertices

Rotating the vertex list, appending copies of the first vertex, or moving the contour and the point together does not change the winding number; so reducing a contour by dropping its trailing copies of the first vertex (exactly these, at least three points being kept) changes no containment answer. A contour whose points are all equal cannot be reduced: the code leaves the array.

- Code: src/py_eddy_tracker/poly.py: winding_number_poly; src/py_eddy_tracker/poly.py: reduce_size
- Approach: Edge multiset argument.
- Status: proved
- Theorems: `C52_first_vertex`, `C52_closing_copies`, `C52_reduced`, `C52_translated`, `C52_all_equal_refuted`
- Note: coordinates are exact rationals

### C53 Contour area is invariant

The area of a contour whose last point is its first one is non negative, is half the absolute value of the shoelace sum, and does not change with trailing copies of the first point, translation, rotation of the vertex list or reversal; the signed sum is the sum of the signed areas of the triangles seen from any point. Without the closing point the value is wrong.

- Code: src/py_eddy_tracker/poly.py: poly_area
- Approach: Algebra on rationals by induction.
- Status: proved
- Theorems: `C53_area`, `C53_copies`, `C53_invariant`, `C53_moved`, `C53_open_refuted`
- Note: coordinates are exact rationals

### C54 Contour simplification to a fixed size

The reduced contour has exactly the requested size; it is a subsequence of the input vertices, in order, followed by copies of its first vertex, with min(n, size-1) positions kept; each removal takes a vertex of smallest current triangle area in the contour left, so no stale triangle is used; the loop always ends and never empties its heap.

- Code: src/py_eddy_tracker/poly.py: visvalingam
- Approach: Abstract priority queue; doubly linked ring invariant.
- Status: proved
- Theorems: `C54_simplified`, `C54_size`, `C54_small_size_refuted`
- Note: the heap is a multiset from which a smallest tuple is taken; coordinates are exact rationals

### C55 Particle to contour assignment

Each particle receives the first contour containing it, modulo whole turns of longitude, and -1 when none does, although only particles of the one-degree boxes of the contour are tested, for contours narrower than 180 degrees; the mask of particles inside a contour follows. Wider contours lose particles, and an empty list of particles is an error.

- Code: src/py_eddy_tracker/poly.py: poly_indexs; src/py_eddy_tracker/poly.py: box_index; src/py_eddy_tracker/poly.py: box_indexes; src/py_eddy_tracker/poly.py: group_obs
- Approach: Box tables model on integers; refinement to the naive search.
- Status: proved
- Theorems: `C55_first_contour`, `C55_inside`, `C55_wide_refuted`, `C55_no_particle_refuted`
- Note: argsort is any function which sorts; unsigned integers are unbounded, latitudes below -90 are out of the theorem; coordinates are exact rationals

### C56 Bounding box prefilter of contour pairs

The prefilter returns, in lexicographic order and once, exactly the pairs of contours whose longitude/latitude boxes meet whatever the turn of longitude used, when the two widths sum to less than 180 degrees; so two contours with a common inside point are always compared, and before the comparison the second contour is moved as a whole by whole turns next to the first. With larger widths a pair can be missed.

- Code: src/py_eddy_tracker/poly.py: bbox_intersection
- Approach: Modular arithmetic on rationals; refutation for wide contours.
- Status: proved
- Theorems: `C56_pairs`, `C56_common_point`, `C56_wrapped`, `C56_wide_refuted`
- Note: coordinates are exact rationals

### C57 Overlap score

For any areas with 0 <= intersection <= min(areas) the score is in [0,1], is 0 or the ratio of the mode when this ratio reaches the threshold or the hybrid rule keeps it, is symmetric except in p1 mode, is never below the union score nor above the minimal area score, and the union score is 1 exactly for equal contours.

- Code: src/py_eddy_tracker/poly.py: vertice_overlap
- Approach: Rational arithmetic with area oracle.
- Status: proved
- Theorems: `C57_range`, `C57_threshold`, `C57_kept`, `C57_symmetric`, `C57_union_below`, `C57_full`, `C57_p1_refuted`
- Note: the areas come from the library Polygon and are parameters

### C58 Advection of a particle does not depend on the other particles

With each of the four schemes (first order or Runge-Kutta, one date or two), the new position of a particle is a function of this particle and of the fields only, although the last cell is kept between particles; masked particles are left as they are, lost ones become nan and masked and stay so, and two releases compose into one. Velocities are those of the nodes at nodes, turns of longitude on a circular grid change nothing, the move in n steps is between n times the smallest and n times the largest value (so exact in a uniform current), a particle which cannot leave the rows of an unmasked circular grid is not lost, and two equal dates give the result of one. A particle south of the grid is not lost but moved with the northern rows, and one cell far out of the grid is treated differently for the first particle.

- Code: src/py_eddy_tracker/dataset/grid.py: advect; src/py_eddy_tracker/dataset/grid.py: advect_rk4; src/py_eddy_tracker/dataset/grid.py: get_uv_quad; src/py_eddy_tracker/dataset/grid.py: interp_uv; src/py_eddy_tracker/dataset/grid.py: get_grid_indices
- Approach: Cache invariant; refutation of rejection south of the grid.
- Status: proved
- Theorems: `C58_euler`, `C58_rk4`, `C58_two_dates_euler`, `C58_two_dates_rk4`, `C58_alone`, `C58_alone_euler`, `C58_compose`, `C58_node`, `C58_turn`, `C58_bounds`, `C58_bounds_two_dates`, `C58_uniform`, `C58_stays`, `C58_same_dates`, `C58_handled`, `C58_south_refuted`, `C58_mark_refuted`
- Note: exact rationals; velocities are already degrees per step (uv_for_advection is not modelled); particles more than a whole grid south of the first row are excluded (index error or memory error in the code)

### C59 Finite difference stencils are exact on polynomials

With r the largest half width, at most the one asked, up to which no neighbour is masked, the derivative at a cell is the centred difference of half width r over its true neighbours, across the seam of a circular grid too, hence exact on every polynomial of degree at most 2r; with one masked side it is the difference with the other side. A result is masked exactly where the value is. Near the ends of a line which does not wrap, values left by the line before are used, and with both sides masked the masked values are used.

- Code: src/py_eddy_tracker/dataset/grid.py: compute_stencil; src/py_eddy_tracker/dataset/grid.py: RegularGridDataset.compute_stencil
- Approach: Ring identities for monomials and linearity.
- Status: proved
- Theorems: `C59_total`, `C59_masked`, `C59_centred`, `C59_exact`, `C59_one_sided`, `C59_neighbours`, `C59_border_refuted`, `C59_both_masked_refuted`
- Note: exact rationals; the factor of each line (from the cosine of the latitude) is a parameter

### C60 Pixel paths are connected and reach both ends

The pixels of a path on a grid start at the pixel nearest to the first position, end at the one nearest to the last, two successive pixels touch each other, across the periodic border too, the path stays less than one pixel away from the straight line and no connected path is shorter. Paths of several segments are returned one after the other with their number of moves; a link is dropped by the ground test exactly when a pixel of its path is ground.

- Code: src/py_eddy_tracker/dataset/grid.py: compute_pixel_path
- Approach: Integer arithmetic with exact division.
- Status: proved
- Theorems: `C60_path`, `C60_shortest`, `C60_straight`, `C60_many`, `C60_nearest`, `C60_ground`
- Note: exact rationals: in floating point a diagonal path can be truncated one pixel short

### C61 Detected eddies never share a pixel

In one identification no grid cell is inside the effective contours of two eddies, of the same sense or not, and no cell of an eddy is masked. Each eddy meets the criteria of shape, side, number of pixels and amplitude computed with the cells of the eddies found before it masked. A contour is the effective contour of at most one eddy and never after being in the profile of an eddy found before. The profile of an eddy is its effective contour followed by one contour per level towards the centre, as far as one is found, and its speed contour is the innermost of those with the largest mean speed among the effective contour and those with more pixels than the minimum. Every contour of the list is the effective contour of an eddy or was refused for a stated reason. The levels are consecutive multiples of the step which enclose all heights.

- Code: src/py_eddy_tracker/dataset/grid.py: GridDataset.eddy_identification
- Approach: Loop over levels/contours with a mask; oracles for geometry.
- Status: proved
- Theorems: `C61_disjoint`, `C61_criteria`, `C61_once`, `C61_profile`, `C61_complete`, `C61_levels`
- Note: contours, pixel search, circle fit, mean speed and nearest contour are parameters; filters of the field, the resampling of the stored contours and the final wrap of longitudes are not modelled

### C62 Time interpolation weights

At each step of an advection with a collection of dates, the weight used is the one for which the mean of the two dates is the time reached, at whole and at half steps, and the two dates follow each other in the collection. When the start is a date and no interval is shorter than a release, every release starts between its two dates; when intervals are whole numbers of releases, all the weights are between 0 and 1. Otherwise weights leave [0, 1]: values are extrapolated. Interpolation at a time uses the two whole dates around it with weights in [0, 1] for times which are not negative, not for negative ones.

- Code: src/py_eddy_tracker/dataset/grid.py: GridCollection.advect; src/py_eddy_tracker/dataset/grid.py: GridCollection.get_next_time_step
- Approach: Iterator model; refutation for a start time between dates.
- Status: proved
- Theorems: `C62_weights`, `C62_between`, `C62_range`, `C62_total`, `C62_refuted`, `C62_interp`, `C62_interp_refuted`
- Note: exact rationals; loading of the grids is not modelled

### C63 Pixels inside a contour are all found

The pixel search of a regular grid returns exactly the grid points inside the contour, each once, when every point of the contour is above the first row of centres and, on a grid which does not wrap, the contour lies in the turn of longitude which starts at the first bound of the grid; on a grid around the earth, when the contour meets this turn and is narrow, the points are taken modulo whole turns and the seam has no effect. Outside of these cases pixels are lost: a contour which touches the first row, one of another turn away from the seam or one nearly as wide as the earth finds nothing, and one across the western side of a grid which does not wrap finds pixels of the other side.

- Code: src/py_eddy_tracker/poly.py: get_pixel_in_regular; src/py_eddy_tracker/generic.py: bbox_indice_regular; src/py_eddy_tracker/generic.py: nearest_grd_indice
- Approach: Rounding bounds; refutation near the southern border.
- Status: proved
- Theorems: `C63_regional`, `C63_around`, `C63_turns`, `C63_south_refuted`, `C63_west_refuted`, `C63_other_turn_refuted`, `C63_wide_refuted`
- Note: coordinates are exact rationals; irregular grids are not modelled

### C64 Cell bounds enclose their centres

The bounds built from two or more centres are one more number; for evenly spaced centres they are the middles between centres. For increasing centres each centre is above its lower bound, and is below its upper bound exactly when the next gap is less than twice its own gap; the bounds increase exactly when no gap is three times the gap before or more. So uneven centres can have bounds which decrease.

- Code: src/py_eddy_tracker/dataset/grid.py: GridDataset.c_to_bounds
- Approach: Rational arithmetic by induction.
- Status: proved
- Theorems: `C64_values`, `C64_needs_two`, `C64_regular`, `C64_above_lower`, `C64_below_upper`, `C64_increase`, `C64_refuted`
- Note: coordinates are exact rationals

### C65 Comparison of two atlases puts each eddy in one family

The families of a comparison hold exactly: eddies with no link of enough score; eddies with one link whose other end has no other link, by score below the low threshold, between, or above the high one; eddies with exactly two links towards eddies with no other (parent); the eddies of such a pair (twin); the other eddies with multiple matches (complex). Each eddy of both datasets is in exactly one family when the low threshold does not exceed the high one, each family holds an eddy once, and the families of single matches of both datasets are aligned link by link. Thresholds are not checked: with low above high an eddy is in two families.

- Code: src/py_eddy_tracker/appli/eddies.py: get_group
- Approach: Mask algebra.
- Status: proved
- Theorems: `C65_families`, `C65_partition`, `C65_pairs`, `C65_symmetric`, `C65_thresholds_refuted`
- Note: scores are exact rationals; the printed tables and files are not modelled

### C66 Line simplification keeps exactly the points far from the last kept one

Simplifying a line keeps the first valid point, then keeps a valid point exactly when its distance to the last kept point is above the precision, and keeps the first gap of each run of gaps. The signed shortcuts on one coordinate never change the decision. A line whose only valid point is the last one loses it.

- Code: src/py_eddy_tracker/generic.py: simplify
- Approach: Model the scan with its reference point; induction over the line with the last kept point as witness.
- Status: proved
- Theorems: `C66_simplify_keeps_far_points`, `C66_single_last_point_lost_refuted`
- Note: The statement excludes the case of a single valid point in last position, refuted by the second theorem.

### C67 Association does not depend on the order of the eddies when costs differ

When no two allowed pairs have the same cost, reordering the eddies of either date, or exchanging the two dates, gives the same links up to that reordering. With equal costs the links depend on the order.

- Code: src/py_eddy_tracker/observations/observation.py: EddiesObservations.solve_simultaneous; src/py_eddy_tracker/observations/observation.py: EddiesObservations.tracking
- Approach: Prove that two stable sets of links coincide when costs are distinct, then apply it to the reordered result.
- Status: proved
- Theorems: `C67_order_independent`, `C67_symmetric`, `C67_ties_depend_on_order_refuted`
- Note: The third theorem shows why distinct costs are required.

### C68 Overlap tracker keeps the best overlaps above the threshold

With the overlap tracker every link joins two eddies whose overlap is above the minimum, links are one-to-one, and every candidate pair above the minimum that is not linked shares an eddy with a linked pair of at least the same overlap.

- Code: src/py_eddy_tracker/featured_tracking/area_tracker.py: AreaTracker.tracking; src/py_eddy_tracker/featured_tracking/area_tracker.py: mask_cmin
- Approach: Model the cost matrix built from the candidates; reuse the solver theorem.
- Status: proved
- Theorems: `C68_overlap_links`
- Note: The computation of overlaps itself is outside (see C57).

### C69 Merging two datasets keeps their tracks apart

Merging a dataset sorted by track with another one keeps the rows of both in order, keeps the track numbers of the first, and gives to two rows of the second the same number iff they had the same number, never a number of the first. When the last row of the first dataset does not hold its largest number, tracks of the two datasets can become one.

- Code: src/py_eddy_tracker/observations/observation.py: EddiesObservations.merge
- Approach: Model the shift by the last number; order argument. Counterexample for an unsorted dataset.
- Status: proved
- Theorems: `C69_merge_keeps_tracks_apart`, `C69_unsorted_refuted`

### C70 Longitudes of a track are unwrapped around its first observation

After normalisation the longitude of every observation is congruent to the stored one modulo 360 and within 180 degrees of the first observation of its track; contour longitudes are within 180 degrees of the longitude of their own observation.

- Code: src/py_eddy_tracker/observations/tracking.py: TrackEddiesObservations.normalize_longitude
- Approach: Rational modulo; index tables of C21 give the first observation.
- Status: proved
- Theorems: `C70_normalized_longitude`, `C70_normalized_field`
- Note: Exact arithmetic.

### C71 Selection by direction keeps whole tracks by their net displacement

Selecting by direction keeps exactly the observations of tracks whose displacement from first to last observation goes in that direction by more than the given value, longitudes being compared the short way round in extract_in_direction and as stored in extract_toward_direction. With west=True and a non negative span extract_toward_direction keeps nothing.

- Code: src/py_eddy_tracker/observations/tracking.py: TrackEddiesObservations.extract_toward_direction; src/py_eddy_tracker/observations/tracking.py: TrackEddiesObservations.extract_in_direction
- Approach: Index tables of C21 give first and last observation; mask algebra.
- Status: proved
- Theorems: `C71_toward_direction`, `C71_west_span_refuted`, `C71_direction_latitude`, `C71_direction_longitude`, `C71_single_refuted`
- Note: Exact arithmetic.

### C72 First observation of each track in each box

extract_first_obs_in_box keeps exactly the observations that are the first of their track in their longitude/latitude box.

- Code: src/py_eddy_tracker/observations/tracking.py: TrackEddiesObservations.extract_first_obs_in_box
- Approach: Model of the unique keys with first index; induction on the scan.
- Status: proved
- Theorems: `C72_first_in_box`

### C73 Lifetime and counts per track

The lifetime of an observation is the number of observations of its track, and count_by_track gives for every number the number of selected observations of that track.

- Code: src/py_eddy_tracker/observations/tracking.py: TrackEddiesObservations.lifetime; src/py_eddy_tracker/observations/tracking.py: count_by_track
- Approach: Index tables of C21; invariant of the counting loop.
- Status: proved
- Theorems: `C73_lifetime`, `C73_count_by_track`

### C74 Each merging, splitting, birth and death is reported exactly once

The list of merging events holds exactly one entry for every segment whose last observation has a next one, with that last observation, the observation merged into and the previous one of the latter; entries are ordered by time. The same holds for splitting events with starts of segments. Without triplets, the observations merged into (or split from) are listed once each in increasing order. Births are the first observations of segments without previous one, deaths the last ones without next one; those of the first segment are left out when it has no link at all, even if its network is not the trash.

- Code: src/py_eddy_tracker/observations/network.py: NetworkObservations.merging_event; src/py_eddy_tracker/observations/network.py: NetworkObservations.splitting_event; src/py_eddy_tracker/observations/network.py: NetworkObservations.birth_event; src/py_eddy_tracker/observations/network.py: NetworkObservations.death_event; src/py_eddy_tracker/observations/network.py: NetworkObservations.first_is_trash
- Approach: Lists of first and last rows from the index tables, then a generic lemma on select/argsort/gather.
- Status: proved
- Theorems: `C74_merging`, `C74_splitting`, `C74_births`, `C74_deaths`, `C74_trash`, `C74_no_row_before_refuted`, `C74_lonely_first_refuted`
- Note: Indices given by the functions; extract_event (C38) copies the rows.

### C75 Selecting networks by number gives exactly these networks

Selecting a list of network numbers, each between the smallest and the largest number of the dataset, keeps exactly the observations of these networks with their links re-indexed; a number of the range with no observation adds nothing. Selecting unique segment numbers keeps exactly the observations of these segments. A number below the smallest one selects another network, and a number above the largest one fails.

- Code: src/py_eddy_tracker/observations/network.py: NetworkObservations.networks_mask; src/py_eddy_tracker/observations/network.py: NetworkObservations.networks; src/py_eddy_tracker/observations/network.py: generate_mask_from_ids
- Approach: Index tables and fills; the negative index is exhibited.
- Status: proved
- Theorems: `C75_networks`, `C75_segments`, `C75_outside_refuted`

### C76 Selection of networks on duration and removal of the trash keep whole networks

Selection on duration keeps exactly the networks whose latest minus earliest time plus one is between the bounds, a negative upper bound being no bound (10^12). Removal of the trash removes exactly network 0 when no observation of the first segment has a link, and is the identity otherwise; network 0 is then removed even when others of its segments have links.

- Code: src/py_eddy_tracker/observations/network.py: NetworkObservations.mask_longer_than; src/py_eddy_tracker/observations/network.py: NetworkObservations.longer_than; src/py_eddy_tracker/observations/network.py: NetworkObservations.remove_trash
- Approach: Slices of the iteration by network and extremes of times.
- Status: proved
- Theorems: `C76_longer_than`, `C76_remove_trash`, `C76_trash_refuted`

### C77 Links around virtual observations join consecutive rows

After the correction of links, a virtual observation that is neither the first nor the last row is linked both ways with the rows before and after it, and every link not next to a virtual observation is unchanged. A virtual first row changes the next link of the last row of the dataset, and a virtual last row writes out of the array.

- Code: src/py_eddy_tracker/observations/network.py: fix_next_previous_obs
- Approach: Loop invariant on the stores.
- Status: proved
- Theorems: `C77_fix_links`, `C77_ends_refuted`

### C78 A network built from groups is well formed

The network built from a sorted set of groups split in segments has rows sorted by network and segment, links that are absent or rows of the same network, next links strictly later and previous links strictly earlier, never more than the window away before reordering. Two successive rows of one segment are linked to each other and follow in time, and two rows linked to each other are successive rows of one segment. Rows of network 0 have no link.

- Code: src/py_eddy_tracker/observations/network.py: NetworkObservations.from_split_network; src/py_eddy_tracker/observations/tracking.py: TrackEddiesObservations.split_network
- Approach: Compose the theorem on split_network with the one on the renumbering of links; [well_formed] is stated on rows only.
- Status: proved
- Theorems: `C78_links`, `C78_network`
- Note: dates of the rows are integers ordered as the dates of the groups; argsort is any permutation sorted by group, segment and date

### C79 Tracks kept by date live at both dates

Keeping the tracks by date and number of days keeps exactly the rows of the tracks which have an observation at the date and one that number of days after (or before). The rows must be sorted by track if the track numbers are unsigned, otherwise rows of other tracks are taken; a dataset without any row raises an error.

- Code: src/py_eddy_tracker/observations/groups.py: GroupEddiesObservations.keep_tracks_by_date; src/py_eddy_tracker/observations/observation.py: EddiesObservations.iter_on
- Approach: Model the mask from the model of iter_on; show that groups are tracks.
- Status: proved
- Theorems: `C79_keep_tracks`, `C79_unsorted_refuted`, `C79_empty_refuted`
- Note: dates compared exactly; argsort is any function which sorts

### C80 The atlas of particle targets pairs the right dates

In the atlas of targets each observation of a used start date, when there are observations at that date plus the duration, receives its targets among exactly the observations of that end date, numbered in the full dataset; every other observation has no target. The code leaves out the last start date which has an end date.

- Code: src/py_eddy_tracker/observations/groups.py: GroupEddiesObservations.particle_candidate_atlas; src/py_eddy_tracker/observations/groups.py: GroupEddiesObservations.fill_coherence; src/py_eddy_tracker/observations/groups.py: particle_candidate_step
- Approach: Model the loop on dates with window_index and merge_particle_result; the advection is a parameter.
- Status: proved
- Theorems: `C80_atlas`, `C80_step`, `C80_last_date_refuted`
- Note: the advection of particles and contours is a parameter; dates are integers; the hypothesis on the step is met by the model of particle_candidate_step (C80_step)

### C81 Containment agrees with geometry

Off the boundary the winding number of a triangle is 1, -1 or 0 as the point is strictly inside a triangle turning left, right, or outside; for any contour it is the sum over the triangles made with its edges and any other point, and it changes sign with the direction; a point strictly on one side of all the edges is inside, and a point separated from the vertices by a line is outside. On an edge the answer depends on the direction of the contour.

- Code: src/py_eddy_tracker/poly.py: winding_number_poly; src/py_eddy_tracker/poly.py: is_left
- Approach: sum over the edges of signed crossings, barycentric identities, telescoping sums
- Status: proved
- Theorems: `C81_triangle`, `C81_triangles`, `C81_reversed`, `C81_one_side`, `C81_separated`, `C81_boundary_refuted`
- Note: coordinates are exact rationals

### C82 Centers close to each other

The pairs returned for a distance delta are exactly the pairs of centers whose latitudes differ by at most delta and whose longitudes differ by at most delta modulo whole turns, in lexicographic order and once.

- Code: src/py_eddy_tracker/poly.py: close_center
- Approach: cases on the wrapped difference, modulo arithmetic on rationals
- Status: proved
- Theorems: `C82_close`
- Note: coordinates are exact rationals

### C83 Meshed particles fill the contours

The particles created with a step are exactly the points of the lattice of multiples of the step which are inside each contour, each once, contour by contour, sorted by longitude then latitude; the creation ends for all contours with two different points.

- Code: src/py_eddy_tracker/poly.py: create_meshed_particles
- Approach: induction on the loops, bounding box theorem
- Status: proved
- Theorems: `C83_mesh`, `C83_ends`
- Note: coordinates are exact rationals: the lattice is not exact in floating point

### C84 A contour inside another one

The test tells whether there is one whole number of turns which puts all the vertices of the inner contour inside the outer one, for contours narrower than 180 degrees; wider contours can be refused, and contours whose edges cross can be accepted as only vertices are tested.

- Code: src/py_eddy_tracker/poly.py: poly_contain_poly
- Approach: modulo arithmetic and bounding box theorem
- Status: proved
- Theorems: `C84_contained`, `C84_wide_refuted`, `C84_crossing_refuted`
- Note: coordinates are exact rationals

### C85 Convex flag

The flag of a closed contour is true exactly when all its turns are strictly left or none is; so a star is accepted and a contour with three vertices in a line is accepted or refused according to its direction.

- Code: src/py_eddy_tracker/poly.py: convex
- Approach: induction on the loop
- Status: proved
- Theorems: `C85_turns`, `C85_refuted`
- Note: coordinates are exact rationals

### C86 Filaments hold the last positions of each particle

After any number of releases, slot s of the filament of a particle holds its position s releases ago, nothing if there were fewer releases, and the slot after each filament is empty.

- Code: src/py_eddy_tracker/dataset/grid.py: RegularGridDataset.filament; src/py_eddy_tracker/dataset/grid.py: GridCollection.filament
- Approach: Index arithmetic on the shifted buffer, induction on the releases.
- Status: proved
- Theorems: `C86_slots`, `C86_zero_refuted`
- Note: positions are those given by the advection (C58)

### C87 The count grid says how many eddies cover each pixel

Counting eddies on a grid from their contours gives at each pixel the number of eddies whose contour contains the centre of the pixel, modulo whole turns, whatever the turn in which each contour is stored. An eddy whose contour touches the first row of the grid is not counted at all.

- Code: src/py_eddy_tracker/observations/observation.py: EddiesObservations.grid_count; src/py_eddy_tracker/observations/observation.py: grid_count_pixel_in; src/py_eddy_tracker/observations/observation.py: grid_count_; src/py_eddy_tracker/poly.py: get_pixel_in_regular; src/py_eddy_tracker/poly.py: reduce_size
- Approach: Exactness of the pixel search, invariance of the winding number by whole turns and by removal of repeated points, induction on the eddies.
- Status: proved
- Theorems: `C87_count`, `C87_south_refuted`
- Note: counts are unbounded integers (u4 in the code); contours less than 90 degrees away from their eddy around the earth

### C88 Statistics of a grid inside contours use exactly the pixels inside

For each eddy the count, mean, largest or smallest value of a grid in its contour is taken over exactly the pixels whose centre is in the contour, modulo whole turns; the mean ignores masked values and is nan when none is left. The largest and smallest values do not ignore masked values, and are an arbitrary extreme constant when there is no pixel.

- Code: src/py_eddy_tracker/observations/observation.py: EddiesObservations.interp_grid; src/py_eddy_tracker/observations/observation.py: grid_stat; src/py_eddy_tracker/poly.py: get_pixel_in_regular
- Approach: Exactness of the pixel search on the grid rebuilt from its centres, induction on the pixels.
- Status: proved
- Theorems: `C88_statistics`, `C88_masked_refuted`, `C88_empty_refuted`
- Note: values are exact rationals

### C89 Centre and amplitude of a contour

A contour with a masked pixel, or with a height on its wrong side, is refused. Otherwise its extrema are its pixels, not on the edge of the window, with no lower (higher for an anticyclone) unmasked pixel among the eight around. Up to the maximum number of extrema the contour is refused only if it has none, and its centre is the lowest extremum and its amplitude the difference of this height with that of the contour. With more extrema, those which touch by a side are replaced by the pixel nearest to their barycentre, and the contour is refused if more than the maximum are deeper than the given number of steps. The barycentre may be outside the contour, and its height, even on the wrong side, then gives the amplitude; two lowest pixels which touch by a corner are two extrema.

- Code: src/py_eddy_tracker/eddy_feature.py: Amplitude.all_pixels_below_h0; src/py_eddy_tracker/eddy_feature.py: Amplitude.all_pixels_above_h0; src/py_eddy_tracker/eddy_feature.py: Amplitude; src/py_eddy_tracker/eddy_feature.py: detect_local_minima_
- Approach: Eid_model.v models the window, the local extrema, their grouping with labels and the choice of the centre. The grouping is proved equal to the connected components by an invariant on the labels over the processed pairs.
- Status: proved
- Theorems: `C89_refused`, `C89_amplitude`, `C89_few`, `C89_plateau_refuted`, `C89_corner_refuted`
- Note: heights are exact rationals below 2e10; the window of the contour is a parameter which holds its pixels

### C90 Coordinates of a regular grid

Centres are kept and refused exactly when their bounds decrease; increasing centres are accepted exactly when no gap is more than three times the gap before. The step is the mean gap. A grid is circular exactly when the longitudes of its ends, each taken in its turn, agree to the tolerance; evenly spaced centres whose cells cover one turn are always circular, for both tests of the code, and any number of column is then brought to the column of the grid at the same longitude. Ends which agree to the tolerance but on both sides of a multiple of 360 are not recognised, equal centres are accepted with a step of 0, and when bounds are given there is one centre per bound, so that a grid around the earth has its first cell twice or is not circular.

- Code: src/py_eddy_tracker/dataset/grid.py: RegularGridDataset.setup_coordinates; src/py_eddy_tracker/dataset/grid.py: RegularGridDataset.is_circular; src/py_eddy_tracker/dataset/grid.py: GridDataset.setup_coordinates
- Approach: Setup_model.v models both branches of setup_coordinates and the two tests of circularity on rationals.
- Status: proved
- Theorems: `C90_centres`, `C90_increasing`, `C90_bounds`, `C90_circular`, `C90_circular_centres`, `C90_turn`, `C90_columns`, `C90_tolerance_refuted`, `C90_strict_refuted`, `C90_bounds_refuted`
- Note: coordinates are exact rationals; one axis at a time

### C91 Contours kept and nearest contour of a level

Of the contours drawn, those with less than four vertices, open by more than a hundredth of degree (unless open ones are asked for) or flat to 1e-8 degree are dropped and all the others kept, in order, closed exactly. Every table points to the vertices and the box of the contour it stands for. The search in a level answers nothing exactly when the box of no contour holds the point, at any turn; when the box of the first contour of the level holds it, the answer is the nearest contour whose box holds it, the first one of equals; otherwise the first contour is the answer when its first vertex is at least as near as all of these, although its box does not hold the point. Without any contour drawn, the tables cannot be built.

- Code: src/py_eddy_tracker/eddy_feature.py: Contours.__init__; src/py_eddy_tracker/eddy_feature.py: index_from_nearest_path_with_pt_in_bbox_; src/py_eddy_tracker/eddy_feature.py: Contours.get_index_nearest_path_bbox_contain_pt
- Approach: Ctr_model.v models the selection of contours, the writing of the tables slice by slice and the search on the tables; Ctr_spec.v has boxes and distances on the circle of longitudes.
- Status: proved
- Theorems: `C91_kept`, `C91_built`, `C91_tables`, `C91_nearest`, `C91_nearest_first`, `C91_outside_refuted`, `C91_empty_refuted`
- Note: coordinates are exact rationals, indices unbounded; what matplotlib draws is any list of contours

### C92 Contours across the seam

On a grid which goes round the earth, the contours cut at its first and last meridian are put together: every contour made this way is closed and goes through parts drawn, each used once and moved by at most one turn, each of which starts where the one before stops; all the other contours are unchanged, and nothing changes when no part lies on one of the two meridians. When every part on the first meridian meets one on the last at both ends, and none of the last meets two, all are closed two by two and none is lost. Parts which cannot be closed are lost when open parts stay on both meridians, and kept otherwise.

- Code: src/py_eddy_tracker/eddy_feature.py: Contours.find_wrapcut_path_and_join; src/py_eddy_tracker/eddy_feature.py: Contours.get_next; src/py_eddy_tracker/eddy_feature.py: Contours.check_closing
- Approach: Seam_model.v models the sorting of the paths, the two passes and the removals from the lists; Seam_spec.v says what a closed contour made of parts is.
- Status: proved
- Theorems: `C92_joined`, `C92_unchanged`, `C92_cut_once`, `C92_lost_refuted`
- Note: coordinates are exact rationals; the limit of Python on nested calls is not modelled

### C93 Correction of close events

Correcting the close events of a network keeps every observation, with its network, time and next observation; its number of segment is one of its network and its previous observation is unchanged or is the end of a segment which merges into it. Without an event (segment B merges, in less than the days given, into a segment A which split from it) the network is sorted and nothing else. When A does not merge itself and no other segment merges into A at or after the merging, exactly the observations of A from the merging on take the number of B, the first of them comes from the end of B, and a segment still has at most one observation for each time. When events meet each other this last point does not hold: observations of other segments are taken too.

- Code: src/py_eddy_tracker/observations/network.py: NetworkObservations.correct_close_events
- Approach: NetFix_model.v models the dictionary of segments, the loop over its keys in order and the final sort; invariants say which numbers are written by the segments already seen.
- Status: proved
- Theorems: `C93_kept`, `C93_closed`, `C93_none`, `C93_times`, `C93_refuted`
- Note: times are integers; the number of days is an integer

### C94 Swap of tracks at splittings

Swapping tracks changes the number of segment of observations and sorts them, and nothing else. When no two swaps start from the same observation, a segment still has at most one observation for each time and the numbers are those of the network. When a segment is in one swap at most, the end of the short main segment and the long segment which splits from it exchange their numbers and all other observations keep theirs. Two segments which split from the same observation and are both swapped get the same number. When the main segment stops at the splitting itself, the decision depends on the last observation of the dataset.

- Code: src/py_eddy_tracker/observations/network.py: NetworkObservations.swap_track
- Approach: NetFix_model.v models the loop on the splitting events in order of time with the indices kept from before the loop; the proof exchanges labels one event at a time.
- Status: proved
- Theorems: `C94_kept`, `C94_times`, `C94_swapped`, `C94_same_row_refuted`, `C94_last_row_refuted`
- Note: times are integers and costs exact rationals; the sort of event times is any sort

### C95 Selection by area

Extracting an area keeps exactly the observations strictly inside its latitudes and longitudes, in their order and with all their fields, whatever the turn in which the longitudes of the area and of each observation are written. An area cut at a meridian gives two parts without common observation, which miss only the observations on the meridian. The western edge is never selected, even by an area of a whole turn, nor are the poles by an area without latitudes, and an area written from a longitude to a smaller one selects nothing.

- Code: src/py_eddy_tracker/observations/observation.py: EddiesObservations.extract_with_area; src/py_eddy_tracker/observations/observation.py: EddiesObservations.extract_with_mask
- Approach: Sel_model.v models the mask in exact arithmetic; the modulo is characterised by uniqueness in one turn.
- Status: proved
- Theorems: `C95_area`, `C95_turn`, `C95_cut`, `C95_edge_refuted`, `C95_inverted_refuted`
- Note: coordinates are exact rationals, not nan

### C96 Sub sampling in time, first and last observations

Sub sampling in time keeps exactly the observations at a whole number of steps from the reference. When the observation number is zero exactly at the start of each track, the first observations and the last observations are the first and the last row of each track, one by track and in the same order of tracks. A track which does not start at zero any more, after a selection, is lost by the first and hides the last row of the track before it, and the last observations of an empty dataset is an error.

- Code: src/py_eddy_tracker/observations/observation.py: EddiesObservations.time_sub_sample; src/py_eddy_tracker/observations/observation.py: EddiesObservations.first_obs; src/py_eddy_tracker/observations/observation.py: EddiesObservations.last_obs
- Approach: Sel_model.v models the masks, the last one by the stores in place; induction on the rows.
- Status: proved
- Theorems: `C96_sub_sample`, `C96_first_last`, `C96_cut_track_refuted`, `C96_empty_refuted`
- Note: times are exact rationals

### C97 Observations in polygons

The mask of a list of polygons holds exactly the observations which are in at least one of them, modulo whole turns, although each polygon is tested only on the observations not yet found, when some observation is left for the last polygon. When all the observations are already in the first polygons the call fails. The contour of a list of points is the first which contains each of them, -1 when none does or for a point which is not a number.

- Code: src/py_eddy_tracker/observations/observation.py: EddiesObservations.mask_from_polygons; src/py_eddy_tracker/observations/observation.py: EddiesObservations.contains; src/py_eddy_tracker/observations/observation.py: EddiesObservations.inside; src/py_eddy_tracker/poly.py: insidepoly
- Approach: Sel_model.v calls the model of poly_indexs (C55); induction on the polygons with the set of points already marked.
- Status: proved
- Theorems: `C97_polygons`, `C97_all_inside_refuted`, `C97_contains`
- Note: coordinates are exact rationals

### C98 Statistics by bins

With increasing edges, the counts by bins are the numbers of observations from the left edge to the right edge excluded, the right edge of the last bin being included; they add up to the number of observations between the first and the last edge. Means are those of the observations of each bin and are not a number for an empty bin; percents add up to 100. Without edges, unit bins start at the least value and each observation is counted exactly once. The documented method std gives counts, and an empty selection without edges is an error.

- Code: src/py_eddy_tracker/observations/observation.py: EddiesObservations.hist; src/py_eddy_tracker/observations/observation.py: EddiesObservations.bins_stat; src/py_eddy_tracker/generic.py: hist_numba
- Approach: Sel_model.v states the histogram of the library (numpy and numba agree) and models the two callers on it; induction on the edges.
- Status: proved
- Theorems: `C98_count`, `C98_mean`, `C98_percent`, `C98_total`, `C98_default_bins`, `C98_bins_mean`, `C98_std_refuted`, `C98_empty_refuted`
- Note: values are exact rationals; the histogram of numpy is specified, not transcribed

### C99 Filtered grids are weighted means

Each cell of a filtered grid is the mean of the values around it, weighted by the kernel of its latitude: masked cells and cells outside the grid take no part, and columns go around a circular grid. Lines above the highest latitude and lines without any value are masked; a masked cell stays masked, or with an extension a cell is masked when the weights found around it are too small. So a constant field is unchanged, values stay between the bounds of the field when no weight is negative, the result does not depend on the column a circular grid starts with, and the high-pass and low-pass filters share the field. A kernel which reaches further than the whole circle, or of one column, makes the filter fail, and a cell whose weights cancel is neither masked nor a number.

- Code: src/py_eddy_tracker/dataset/grid.py: RegularGridDataset.convolve_filter_with_dynamic_kernel; src/py_eddy_tracker/dataset/grid.py: GridDataset.high_filter; src/py_eddy_tracker/dataset/grid.py: GridDataset.low_filter; src/py_eddy_tracker/dataset/grid.py: RegularGridDataset.bessel_high_filter; src/py_eddy_tracker/dataset/grid.py: RegularGridDataset.bessel_low_filter
- Approach: Filt_model.v builds the temporary matrix by slices as the code does and applies filter2D by its definition; the matrix is proved to hold the values around each cell.
- Status: proved
- Theorems: `C99_mean`, `C99_constant`, `C99_bounds`, `C99_turn`, `C99_high_low`, `C99_wide_refuted`, `C99_column_refuted`, `C99_nan_refuted`
- Note: values and weights are exact rationals; filter2D is specified as a correlation

### C100 Kernels of filters

The kernel made from its eastern half is this half and its mirror image without the empty columns and lines around: its number of columns is odd, it is symmetric, no weight is lost and nothing more could be removed. It fails only when all the weights are zero. When the empty lines are the same on both sides of the centre, the kernel is centred, as the filter supposes; otherwise the filter uses a shifted kernel.

- Code: src/py_eddy_tracker/dataset/grid.py: RegularGridDataset.finalize_kernel
- Approach: Kern_model.v models the mirror and the removal of the empty borders; the first and last valid columns are opposite by symmetry.
- Status: proved
- Theorems: `C100_mirror`, `C100_empty`, `C100_centred`, `C100_shift_refuted`
- Note: weights are exact rationals; the formulas of the weights are not modelled

### C101 Variables kept by a grid

A variable of the file is read once, with the indices of this first reading and the longitudes first; until it is stored again or the grid cleaned, every later reading gives the same array, whatever the calls made in between and whatever the indices asked. When the grid is written, the variables read come back with the orientation of the file, as do copies made after the reading. A copy made before the variable was read is written transposed, variables added by add_grid are not written, a clean loses the variables computed in memory, and the velocities computed from a height are kept when another height is asked.

- Code: src/py_eddy_tracker/dataset/grid.py: GridDataset.grid; src/py_eddy_tracker/dataset/grid.py: GridDataset.copy; src/py_eddy_tracker/dataset/grid.py: GridDataset.add_grid; src/py_eddy_tracker/dataset/grid.py: GridDataset.write; src/py_eddy_tracker/dataset/grid.py: GridDataset.clean; src/py_eddy_tracker/dataset/grid.py: GridDataset.populate; src/py_eddy_tracker/dataset/grid.py: RegularGridDataset.add_uv; src/py_eddy_tracker/dataset/grid.py: RegularGridDataset.uv_for_advection
- Approach: Store_model.v models the dictionaries of arrays and of descriptions as a state machine; invariants by induction on the calls.
- Status: proved
- Theorems: `C101_first`, `C101_kept`, `C101_indices_refuted`, `C101_written`, `C101_copy`, `C101_copy_refuted`, `C101_add_refuted`, `C101_clean`, `C101_height`
- Note: arrays and their transposition are parameters; attributes of variables are not modelled

### C102 Collections of grids

An item of a collection is the grid of the first date equal to the one asked, an error if there is none. After any number of shifts a non empty collection holds the most recent grids in order, as many as at the start. Resetting unloads all the loaded grids when there are more than the limit and changes nothing otherwise. A path is the starting positions followed by those of the successive releases, and fails only when the dates run out. The interpolation at the last date fails, and the first time of a path is in days while the next ones are in seconds.

- Code: src/py_eddy_tracker/dataset/grid.py: GridCollection.__getitem__; src/py_eddy_tracker/dataset/grid.py: GridCollection.shift_files; src/py_eddy_tracker/dataset/grid.py: GridCollection.reset_grids; src/py_eddy_tracker/dataset/grid.py: GridCollection.path; src/py_eddy_tracker/dataset/grid.py: GridCollection.interp
- Approach: Store_model.v models the list of dates and the generator of releases by its transition; induction.
- Status: proved
- Theorems: `C102_item`, `C102_shift`, `C102_last_refuted`, `C102_reset`, `C102_path`, `C102_units_refuted`
- Note: the advection itself is C58 and C62

### C103 Sizes and numbers of networks and segments

For rows sorted by network then segment, the sizes of networks are the numbers of rows from the lowest number to the highest, networks without rows included; the networks counted are those with rows, and the slice of a network holds exactly its rows. The segments counted are the distinct pairs of network and segment, their sizes are their numbers of rows, and the network and segment of the k-th one are the k-th pair in order. A number below the lowest network reads the table from its end: the number of rows of another network is given, or an error.

- Code: src/py_eddy_tracker/observations/network.py: NetworkObservations.network_size; src/py_eddy_tracker/observations/network.py: NetworkObservations.nb_network; src/py_eddy_tracker/observations/network.py: NetworkObservations.network_slice; src/py_eddy_tracker/observations/network.py: NetworkObservations.segment_size; src/py_eddy_tracker/observations/network.py: NetworkObservations.nb_segment; src/py_eddy_tracker/observations/network.py: NetworkObservations.network_segment_size; src/py_eddy_tracker/observations/network.py: NetworkObservations.unique_segment_to_id
- Approach: NetTab_model.v models the tables of first and last rows; NetTab_proofs.v relates them to numbers of occurrences.
- Status: proved
- Theorems: `C103_networks`, `C103_below_refuted`, `C103_segments`
- Note: columns of nonnegative integers

### C104 Tables kept by a network stay right

Whatever the calls made before, sizes, slices, counts and identifiers are those of a network with the present columns which keeps no table, as long as the networks are not renumbered after their table was asked for without a sort in between. Renumbering segments gives in each network the numbers from the one asked, one after the other, and keeps the tables right. After a renumbering of networks whose table was already asked for, sizes are still answered for the former numbers.

- Code: src/py_eddy_tracker/observations/network.py: NetworkObservations.index_network; src/py_eddy_tracker/observations/network.py: NetworkObservations.index_segment_track; src/py_eddy_tracker/observations/network.py: NetworkObservations.segment_track_array; src/py_eddy_tracker/observations/network.py: NetworkObservations.reset_index; src/py_eddy_tracker/observations/network.py: NetworkObservations.numbering_segment; src/py_eddy_tracker/observations/network.py: NetworkObservations.numbering_network; src/py_eddy_tracker/observations/network.py: NetworkObservations.sort
- Approach: NetTab_model.v models the kept tables as a state; the invariant is that each kept table is the table of the present columns, by induction on the calls.
- Status: proved
- Theorems: `C104_tables`, `C104_numbering`, `C104_stale`, `C104_stale_refuted`
- Note: the network is its columns track and segment; a sort is given by its permutation

### C105 Methods mapped on segments and networks

A method mapped on segments or networks is given for each of them the values of its rows in their order. With one result for each row, the rows of a group receive what the method answers for this group: one value repeated, or a list in the order of the rows; the call fails when a list has another size than the group. A mean by segment gives all the rows of a segment their mean. With one result for each group, the results come by increasing number, and in a dictionary under the number of the network.

- Code: src/py_eddy_tracker/observations/network.py: NetworkObservations.map_segment; src/py_eddy_tracker/observations/network.py: NetworkObservations.map_network; src/py_eddy_tracker/observations/network.py: NetworkObservations.mean_by_segment
- Approach: NetTab_model.v stores the answers by slices; each slice is proved to hold the rows of its label.
- Status: proved
- Theorems: `C105_same`, `C105_value`, `C105_list`, `C105_segments`
- Note: the method is a parameter; fields of one value for each row

### C106 The command which extracts a part of the networks

The command writes exactly the rows of the networks asked for whose network lasts at least and at most the number of days asked for and whose day is in the period asked for, in the order of the file, with their links when both ends are kept. A negative day of the period is counted from the first or the last day of the rows chosen by the other options. With the option which removes dead ends the command fails for every file, and the option which removes the trash changes nothing.

- Code: src/py_eddy_tracker/appli/network.py: subset_network; src/py_eddy_tracker/observations/network.py: NetworkObservations.extract_with_period; src/py_eddy_tracker/observations/network.py: NetworkObservations.longer_than; src/py_eddy_tracker/observations/network.py: NetworkObservations.networks
- Approach: Subset_model.v chains the models of the selections; picks_trans composes what each step keeps.
- Status: proved
- Theorems: `C106_subset`, `C106_dead_end_refuted`, `C106_trash_refuted`
- Note: numbers asked for are between the lowest and the highest network of the file; the plot of the period is not modelled

### C107 Contour of greatest speed

From the contour of an eddy, the search of the greatest mean speed goes through the nearest contours of the next levels inwards, one level after the other, and stops at the first level which has none or whose nearest contour does not hold the centre. Speeds are given for these contours in this order, and the inner contour is the last one. The contour selected has the greatest mean speed among the contour of the eddy and the contours met with more pixels than the minimum, the innermost of them when equal, and its level number is the one given. When the mean speed of the contour of the eddy is not a number, this contour is always the one selected.

- Code: src/py_eddy_tracker/dataset/grid.py: GridDataset.eddy_identification; src/py_eddy_tracker/dataset/grid.py: GridDataset.get_uavg; src/py_eddy_tracker/eddy_feature.py: Contours.iter
- Approach: Uavg_model.v models the loop with nearest contour, containment, number of pixels and mean speed as parameters; induction on the levels met.
- Status: proved
- Theorems: `C107_walk`, `C107_selected`
- Note: nearest contour, containment, pixels and mean speed are parameters (modelled in other files)

### C108 Contours which hold several eddies

After the identification, an unused contour of an anticyclone at a level is marked when it holds at least two eddies found at the next level. For cyclones the heights compared are not those of the next level inwards: at the second level it is the height of the last level, and above it the height two levels below; two eddies of the next level are not marked.

- Code: src/py_eddy_tracker/eddy_feature.py: Contours.label_contour_unused_which_contain_eddies
- Approach: Uavg_model.v models the loop on levels with python indexes; induction on the levels.
- Status: proved
- Theorems: `C108_anticyclonic`, `C108_cyclonic`, `C108_cyclonic_refuted`
- Note: containment of an eddy in a contour is a parameter

### C109 Match of two datasets

The match gives each pair of rows once, in the order of the first dataset then of the second one, with its score: exactly the pairs whose score reaches the minimum, among the pairs whose contours have crossing boxes (modulo a turn) for the overlap method, or whose centres are closer than the distance on each axis (modulo a turn) for the centre method. With subsets of rows, the indices are those of the subsets, and re-referencing gives back the rows of the dataset. With the default minimum, zero, the overlap method also gives pairs with crossing boxes and no common area. An unknown method always fails.

- Code: src/py_eddy_tracker/observations/observation.py: EddiesObservations.match; src/py_eddy_tracker/observations/observation.py: EddiesObservations.re_reference_index; src/py_eddy_tracker/poly.py: bbox_intersection; src/py_eddy_tracker/poly.py: vertice_overlap; src/py_eddy_tracker/poly.py: close_center
- Approach: Match_model.v takes the subsets and chains the box test, the score and the filter; the areas given by the library Polygon are a parameter.
- Status: proved
- Theorems: `C109_match`, `C109_rows`, `C109_method`, `C109_default_refuted`
- Note: areas of intersections (library Polygon) are a parameter; re_reference_index of a mask gives booleans and is not modelled

### C110 Tracks of another atlas which stay close

The selection of the close tracks keeps, with all their rows and in their order, exactly the tracks of the other atlas with at least the minimum number of matching pairs of rows of the same day, days being counted from the first date of the first dataset; nothing is kept when the periods are apart. Pairs are counted, not observations: an observation which matches two observations of the same day counts twice. The selection fails when the other atlas is sorted by time and begins before the first dataset, and when the crossing periods have no common day.

- Code: src/py_eddy_tracker/observations/tracking.py: TrackEddiesObservations.close_tracks; src/py_eddy_tracker/observations/observation.py: EddiesObservations.align_on; src/py_eddy_tracker/observations/observation.py: EddiesObservations.match
- Approach: Match_model.v chains the alignment by days, the match of each day, the re-referencing, the count by track and the extraction; close_ids_spec collects the pairs of all the days.
- Status: proved
- Theorems: `C110_tracks`, `C110_apart`, `C110_twice_refuted`, `C110_before_refuted`, `C110_no_day_refuted`
- Note: close_network has the same loop but builds its bins with range() on dates which are floats, so it fails before it; it is not modelled further

### C111 Rows loaded from a file

Loading the rows start to stop of a file, with stop beyond the end or not, gives exactly these rows in their order, in both formats; for zarr the result does not depend on the size of the blocks, and the step of the slice is ignored. Raw values written by blocks are the same as written at once. A slice without end always fails. In netcdf a step greater than one makes the load of two rows or more fail, or gives copies of the first row when the step reaches the end of the slice. A slice of the last row, counted from the end, gives one copy of this row per row of the file and one more.

- Code: src/py_eddy_tracker/observations/observation.py: EddiesObservations.load_from_zarr; src/py_eddy_tracker/observations/observation.py: EddiesObservations.copy_data_to_zarr; src/py_eddy_tracker/observations/observation.py: EddiesObservations.load_from_netcdf; src/py_eddy_tracker/observations/observation.py: EddiesObservations.create_variable_zarr
- Approach: File_model.v models the slices of python and numpy assignments with broadcast; induction on the blocks.
- Status: proved
- Theorems: `C111_zarr`, `C111_zarr_all`, `C111_netcdf`, `C111_netcdf_all`, `C111_open`, `C111_step`, `C111_negative_refuted`, `C111_store`
- Note: one column; the conversion of a row is a parameter; opening of files, compression and versions are not modelled

### C112 Values stored in a packed variable

A value in the reach of a packed variable is stored as the nearest multiple of its scale and read back at most half a scale away, whatever the two formats of the write and of the read; a value read is stored again as the same integer, and the order of the values is kept (dates stay sorted). Raw values are the integers of the file, both when written and when read, and variables without scale are stored as they are. When the units of the file are not those of the software, raw values read from zarr are changed by the factor of the units, and those of netcdf are not.

- Code: src/py_eddy_tracker/observations/observation.py: EddiesObservations.create_variable; src/py_eddy_tracker/observations/observation.py: EddiesObservations.create_variable_zarr; src/py_eddy_tracker/observations/observation.py: EddiesObservations.copy_data_to_zarr; src/py_eddy_tracker/observations/observation.py: EddiesObservations.load_from_netcdf; src/py_eddy_tracker/__init__.py: VAR_DESCR
- Approach: File_model.v models the packing of netCDF4 and of the filter FixedScaleOffset in exact arithmetic with rounding half to even.
- Status: proved
- Theorems: `C112_nearest`, `C112_again`, `C112_order`, `C112_raw`, `C112_unpacked`, `C112_raw_units_refuted`
- Note: exact arithmetic: the rounding of floats is not modelled; a value which does not fit in the integer type is an error of the model

### C113 Rotation of a dataset in its file

The rotation written in a file is the one read back, for both formats and all kinds of datasets, and it agrees with the name of the file. A column of rotations in a netcdf file takes over: its first row gives the rotation, and an empty column makes the load fail; zarr files do not look at it. Tracks of unknown rotation are named cyclonic and read back as anticyclonic.

- Code: src/py_eddy_tracker/observations/observation.py: EddiesObservations.global_attr; src/py_eddy_tracker/observations/observation.py: EddiesObservations.sign_legend; src/py_eddy_tracker/observations/tracking.py: TrackEddiesObservations.set_global_attr_netcdf; src/py_eddy_tracker/observations/observation.py: EddiesObservations.load_from_netcdf; src/py_eddy_tracker/observations/observation.py: EddiesObservations.load_from_zarr
- Approach: File_model.v models the attributes written and read; case analysis.
- Status: proved
- Theorems: `C113_sign`, `C113_column`, `C113_unknown_refuted`
- Note: other attributes are not modelled

### C114 Fields of a dataset

Removing fields keeps the other fields with their values; the fields added by the class (track, n, virtual, ...) stay even when asked to be removed. Adding fields keeps all values and adds columns of zeros; new arrays are dropped without a word when the dataset has no array, and adding to a dataset whose fields were removed fails. A copy has the same fields and values. A merge joins the columns of the first dataset, with zeros where the second one has no such field. A load fills the variables asked for (the list to include wins over the list to remove), and the basic fields which are not loaded are columns of zeros. Concatenating datasets with the same fields joins their columns; but two datasets loaded with different variables pass the check of coherence, and their columns are mixed by position.

- Code: src/py_eddy_tracker/observations/observation.py: EddiesObservations.elements; src/py_eddy_tracker/observations/observation.py: EddiesObservations.remove_fields; src/py_eddy_tracker/observations/observation.py: EddiesObservations.add_fields; src/py_eddy_tracker/observations/observation.py: EddiesObservations.concatenate; src/py_eddy_tracker/observations/observation.py: EddiesObservations.merge; src/py_eddy_tracker/observations/observation.py: EddiesObservations.coherence; src/py_eddy_tracker/observations/observation.py: EddiesObservations.build_var_list
- Approach: Fields_model.v models the structured array as the list of its named columns, with the order of sets as a parameter.
- Status: proved
- Theorems: `C114_remove`, `C114_add`, `C114_remove_add_refuted`, `C114_concatenate`, `C114_concatenate_refuted`, `C114_merge`, `C114_copy`, `C114_load`
- Note: types of the columns are not modelled; numbers of tracks of a merge are in C69

### C115 Coherence of the segments of a network

For each observation whose date plus (forward) or minus (backward) the duration is in the period of the network, the two best targets are taken among exactly the observations of the network at that date, from particles put in the eddies of its date and moved with exactly the fields of the days between, in order; only files of dates of the period are asked for; all other observations have no target. When the period lasts exactly the duration (a single date to treat) the call fails whatever the data, because the message of progress divides by zero; a null duration always fails too.

- Code: src/py_eddy_tracker/observations/network.py: NetworkObservations.segment_coherence_forward; src/py_eddy_tracker/observations/network.py: NetworkObservations.segment_coherence_backward; src/py_eddy_tracker/observations/groups.py: particle_candidate; src/py_eddy_tracker/observations/groups.py: advect; src/py_eddy_tracker/dataset/grid.py: GridCollection.from_netcdf_list; src/py_eddy_tracker/dataset/grid.py: GridCollection.shift_files; src/py_eddy_tracker/dataset/grid.py: GridCollection.advect
- Approach: Coh_model.v models the loop on dates, the window of loaded files and the fill of the columns; induction on the dates.
- Status: proved
- Theorems: `C115_coherence`, `C115_one_date_refuted`, `C115_null_refuted`
- Note: the movement by a pair of fields, the creation of particles and the search of the eddy around a point are parameters (C55, C58, C62 and C83 treat them)

### C116 Exchange of particles around an event

The statistics from an observation towards a target are those of the percentages of the observations which follow it in its segment, less than the window apart, whose particles end in the segment of the target: each of them and no other, or -1 when there are not enough of them; each event is treated from its origins towards its target, or from its target towards its origins. With at most one observation by day and at most one target in the segment for each one, the buffer is never overrun. Segments are compared without the number of the network, so that a segment of same number in another network is counted too and may overrun the buffer.

- Code: src/py_eddy_tracker/observations/network.py: get_percentile_on_following_obs; src/py_eddy_tracker/observations/network.py: get_percentile_around_event
- Approach: Coh_model.v models the loop with the writes in the buffer of fixed size; induction on the followed observations.
- Status: proved
- Theorems: `C116_following`, `C116_fits`, `C116_networks_refuted`, `C116_events`
- Note: the percentile itself is not modelled: the theorem gives the list of values it is applied to

### C117 Positions of the eddies waited for

At each step of a tracking with virtual eddies, the eddies compared to those of the next date are the real ones of the date then the lost ones which are waited for, each at the place foreseen for its track, and a link from one of these carries on its track. A track lost for k dates is supposed to be at its last position plus k times the way between the two eddies of its last link (the first of which may itself be a foreseen one), modulo a turn for the longitude; its other values are the last ones, its date is null and its contours are null, or those of the last eddy, not moved, with the tracker of areas.

- Code: src/py_eddy_tracker/observations/observation.py: EddiesObservations.propagate; src/py_eddy_tracker/tracking.py: Correspondances.recense_dead_id_to_extend; src/py_eddy_tracker/tracking.py: Correspondances.store_correspondance; src/py_eddy_tracker/featured_tracking/area_tracker.py: AreaTracker.propagate
- Approach: Virt_model.v models propagate column by column and row by row; foreseen positions are an inductive predicate on the links and dates, kept as an invariant of the run of Corr_model.v.
- Status: proved
- Theorems: `C117_columns`, `C117_run`, `C117_straight`, `C117_turn`
- Note: exact arithmetic; elements other than positions, date and contours are one value by row

### C118 Links of the reference tracker

The reference tracker (CheltonTracker) may link an eddy with an eddy of the next date exactly when the second is in the ellipse which goes from 1.05 degrees on the east, north and south of the first to a reach on its west which is 1.5 degrees up to 5 degrees of latitude, 1.05 degrees from 23 degrees of latitude and a straight line between, longitudes being taken modulo a turn, when the amplitudes and the radii have ratios strictly between 2/5 and 5/2, and when no pixel of the way between them is on the ground. Each eddy is then linked with the nearest of those allowed; if several eddies have the same nearest one, only the one of greatest amplitude keeps the link. A null amplitude of the first eddy raises an error as soon as another eddy is in its ellipse.

- Code: src/py_eddy_tracker/featured_tracking/old_tracker_reference.py: CheltonTracker.mask_function; src/py_eddy_tracker/featured_tracking/old_tracker_reference.py: check_ratio; src/py_eddy_tracker/observations/observation.py: shifted_ellipsoid_degrees_mask2; src/py_eddy_tracker/observations/observation.py: EddiesObservations.basic_formula_ellipse_major_axis; src/py_eddy_tracker/observations/observation.py: EddiesObservations.tracking
- Approach: Chel_model.v models the mask function with its three steps and the cost matrix; composed with the solver of C11 and the pixel paths of C60.
- Status: proved
- Theorems: `C118_region`, `C118_extent`, `C118_turns`, `C118_reach`, `C118_mask`, `C118_defined`, `C118_links`, `C118_null_refuted`
- Note: exact arithmetic; the distance and the mask of the ground are parameters

### C119 Files of the tracking command

The tracking command reads its files in the order of dates, without the last blank_period ones, and refuses dates which are not regularly spaced, fewer files than TRACK_DURATION_MIN, no file at all, and exactly three files when virtual eddies are used. Otherwise the links are saved, and every observation of the files read is then written in exactly one of the three datasets (untracked, long tracks, short tracks), once; a track is in the long dataset exactly when it has at least TRACK_DURATION_MIN rows. When no track is shorter than TRACK_DURATION_MIN, or when there is no track, the command fails after having saved the links and writes no dataset. The choice of the files keeps one file out of sub_sampling_step in the order of dates, then those between the two dates; giving one date without the other is an error.

- Code: src/py_eddy_tracker/appli/eddies.py: browse_dataset_in; src/py_eddy_tracker/appli/eddies.py: track; src/py_eddy_tracker/tracking.py: Correspondances.get_unused_data; src/py_eddy_tracker/tracking.py: Correspondances.longer_than; src/py_eddy_tracker/tracking.py: Correspondances.shorter_than; src/py_eddy_tracker/tracking.py: Correspondances.merge
- Approach: Cmd_model.v composes the choice of the files with the model of the correspondences (C03 to C09); proved by composing their theorems: the observations of the rows are one to one with those used by links.
- Status: proved
- Theorems: `C119_files`, `C119_outputs`, `C119_no_short_track_refuted`
- Note: a run without previous correspondences; the filling of virtual observations is C48

### C120 Circle fitted on a contour

When the vertices of a contour (the first one, repeated at the end, taken once) are not all at the same place, the circle given by the fit minimises over all the circles the sum of the squares of (squared distance of the vertex to the centre minus squared radius); its radius is positive and its square is the mean of the squared distances. The function fails exactly when the centre found is a vertex of the contour, which can happen for a simple contour. When three vertices are not on a line this circle is unique, so that the result does not depend on the solver, the two fitting functions agree, vertices on a circle give this circle, and a contour moved, turned, reflected or enlarged gives the circle moved, turned, reflected or enlarged with the same shape error. When no vertex is out of the circle the shape error is the part of the disc, in percent, which the contour does not fill; otherwise it is not the documented formula: vertices out of the circle are pulled on it, and a square around the disc of radius 1 has an error of 100 % instead of 27 %.

- Code: src/py_eddy_tracker/poly.py: fit_circle; src/py_eddy_tracker/poly.py: fit_circle_; src/py_eddy_tracker/poly.py: shape_error; src/py_eddy_tracker/poly.py: poly_area
- Approach: Circ_model.v on the real numbers of the standard library; lstsq is any function whose result has the least sum of squares (one is given by orthogonalisation). The linear problem is shown to be the problem of the circles; uniqueness by strict convexity.
- Status: proved
- Theorems: `C120_best`, `C120_unique`, `C120_methods`, `C120_exact`, `C120_moves`, `C120_inside`, `C120_formula_refuted`, `C120_centre_refuted`
- Note: on exact real numbers; uses the three axioms of the real numbers of the standard library (sig_forall_dec, sig_not_dec, functional_extensionality_dep)

### C121 Regular resampling of contours and profiles

A contour is resampled in exactly the number of points asked for (number of vertices times the factor by default); it is an error only without vertex or with a negative number. Point k of n is on a segment of the contour, at the same part of it for both coordinates, at the position k/(n-1) of the whole length measured along the contour, each segment counting for its distance and at least one millimetre. A vertex at a regular position is kept, hence both ends (a closed contour stays closed) and, for segments of the same length, all the vertices when the points are a multiple of the segments. The mean along a contour uses every point but the first one once, is nan for one nan unless nan are removed, and stays between the bounds of the values. The profile of speeds of an eddy has the number of values asked for, begins with the speed of the outer contour, ends with that of the innermost one, and has the linear interpolation at regular positions between.

- Code: src/py_eddy_tracker/generic.py: uniform_resample; src/py_eddy_tracker/dataset/grid.py: raw_resample; src/py_eddy_tracker/dataset/grid.py: mean_on_regular_contour; src/py_eddy_tracker/dataset/grid.py: RegularGridDataset.speed_coef_mean
- Approach: Resamp_model.v on exact rational numbers with the distance as a parameter; the interpolation is shown to use the segment found from the positions only, so that both coordinates use the same part.
- Status: proved
- Theorems: `C121_size`, `C121_points`, `C121_vertices`, `C121_ends`, `C121_regular`, `C121_single`, `C121_mean`, `C121_profile`

### C122 Distances and local coordinates on the sphere

The distance between two positions is the radius of the sphere times the angle of their directions; it is symmetric, between 0 and half of the circumference, null exactly for the same place (same latitude and longitudes equal up to whole turns, out of the poles), satisfies the triangle inequality, and does not change with whole turns, a common shift of longitude or an exchange of the hemispheres; along a meridian or the equator it is the radius times the difference of angle. The matrix of distances has one row for each position of the first list and one column for each of the second, nan exactly for the couples more than 15 degrees of latitude or 20 degrees of longitude (the shortest way round) apart, and kilometres elsewhere. Local coordinates have for norm the distance to the reference; for a reference and a position out of the poles the transformation to local coordinates and back gives the same latitude and the same longitude up to whole turns, within 180 degrees of the reference; the other way, coordinates shorter than half of the circumference are given back. With a reference on a pole every local point gets the longitude of the reference. Contours drawn as circles have the number of points asked for, are closed, and every point is exactly at the radius times the factor from the centre, in regular directions; with only_virtual the other observations are left.

- Code: src/py_eddy_tracker/generic.py: distance; src/py_eddy_tracker/generic.py: distance_grid; src/py_eddy_tracker/generic.py: coordinates_to_local; src/py_eddy_tracker/generic.py: local_to_coordinates; src/py_eddy_tracker/observations/observation.py: EddiesObservations.circle_contour
- Approach: Sph_model.v on the real numbers of the standard library, with arctan2 built on atan; the haversine formula is shown equal to the scalar product of the directions, the triangle inequality comes from a Gram inequality.
- Status: proved
- Theorems: `C122_great_circle`, `C122_metric`, `C122_turns`, `C122_matrix`, `C122_matrix_cells`, `C122_local_norm`, `C122_back`, `C122_forth`, `C122_pole_refuted`, `C122_circle`
- Note: on exact real numbers; uses the axioms of the real numbers of the standard library (sig_forall_dec, sig_not_dec, functional_extensionality_dep, classic)

### C123 Circle of a contour given in degrees

Unless the vertices of a contour extend over less than 1e-7 degree in both directions (result: longitude 0, latitude -90, nan), the fitted circle has its centre within half a turn of the mean longitude of the vertices without the first one; the local coordinates of this centre around the mean position are those of the best circle of the local coordinates of the vertices, the radius is that of this circle. Vertices which are all at one distance of their mean position (not on a line) give exactly this position and this distance. The circle of equal area has the mean position as centre and the area of the contour in local coordinates. A contour moved in longitude has its circle moved by the same amount, with the same latitude, radius and error, for both methods. Circles are kept with the contour: the same method asked again gives the first result, also when the vertices were changed in between; the methods do not interfere; an unknown method is an error.

- Code: src/py_eddy_tracker/dataset/grid.py: fit_circle_path; src/py_eddy_tracker/dataset/grid.py: _circle_from_equal_area; src/py_eddy_tracker/dataset/grid.py: _fit_circle_path
- Approach: Pcirc_model.v composes the models of the local coordinates (C122) and of the fit (C120).
- Status: proved
- Theorems: `C123_shift`, `C123_fit`, `C123_equal_area`, `C123_exact`, `C123_cache`
- Note: on exact real numbers; uses the axioms of the real numbers of the standard library (sig_forall_dec, sig_not_dec, functional_extensionality_dep, classic); the solver of numpy is a parameter

### C124 Convex hull of a contour

The search of the convex hull ends for every contour and fails only without vertex. Its result starts and ends on the first of the leftmost vertices, its other positions are vertices of the contour in the order of the contour, and every vertex which comes in the contour after an edge of the result is strictly on the left of this edge. A contour which is strictly convex and anticlockwise comes back with all its vertices. A contour which never turns to the left gives the leftmost vertex twice. An anticlockwise contour with a hollow just before its leftmost vertex can give a result which is not convex.

- Code: src/py_eddy_tracker/poly.py: get_convex_hull; src/py_eddy_tracker/poly.py: is_left
- Approach: Hull_model.v has the two loops with a bound on the turns; they are shown to be a search on the list of vertices seen from the leftmost one (relation wraps), from which the properties come by induction.
- Status: proved
- Theorems: `C124_vertices`, `C124_convex`, `C124_clockwise_refuted`, `C124_hollow_refuted`, `C124_tested_refuted`
- Note: coordinates are exact rationals; the claim that the result is convex is refuted (C124_hollow_refuted)

### C125 Weights of the filters

A kernel exists exactly when its order is above 0 and the wave length is at least two cells in both directions at the latitude (out of the poles). Its half has as many cells as needed to reach the wave length times the order in both directions, and not one multiple more; the weight of a cell depends only on its distance to the centre divided by the wave length, and is null over the order; the half which is filled by symmetry has the weights of its own distances; along a meridian the distance is the number of steps. Weights of kernel_loess of order 1 are between 0 and 1, 1 only at the centre, decreasing with the distance, null from the wave length on; over order 1 the weights beyond the wave length are negative. Weights of kernel_lanczos are 1 at the centre, never over 1 and null at whole wave lengths. kernel_bessel has pi at the centre and nowhere else by construction.

- Code: src/py_eddy_tracker/dataset/grid.py: RegularGridDataset.check_order; src/py_eddy_tracker/dataset/grid.py: RegularGridDataset.get_step_in_km; src/py_eddy_tracker/dataset/grid.py: RegularGridDataset.estimate_kernel_shape; src/py_eddy_tracker/dataset/grid.py: RegularGridDataset.kernel_lanczos; src/py_eddy_tracker/dataset/grid.py: RegularGridDataset.kernel_loess; src/py_eddy_tracker/dataset/grid.py: RegularGridDataset.kernel_bessel
- Approach: Kwgt_model.v on real numbers with the distance of C122; cells are followed through arange and the matrix of distances.
- Status: proved
- Theorems: `C125_kernels`, `C125_defined`, `C125_loess`, `C125_lanczos`, `C125_mirror`
- Note: on exact real numbers; uses the axioms of the real numbers of the standard library (sig_forall_dec, sig_not_dec, functional_extensionality_dep, classic); j1 of scipy is a parameter; orders below 1 are not modelled

### C126 Fit of an ellipse

For points taken on an ellipse which does not go through the origin, has axes tilted from those of the coordinates, and through which no other conic goes, fit_ellipse gives back the centre, half lengths A and B above 0 and an angle between -90 and 90 degrees such that the ends of both axes, A along the angle and B across it, are on the ellipse. A is the greatest distance to the centre and B the smallest when the origin is inside the ellipse, the other way round when it is outside. When the ellipse goes through the origin the equations do not determine the fit; when its axes are those of the coordinates, a circle included, the call stops on a division by zero.

- Code: src/py_eddy_tracker/poly.py: fit_ellipse
- Approach: Ell_model.v on real numbers, lstsq a parameter with the property of least squares; the solution is identified by independence, then the formulas are worked out.
- Status: proved
- Theorems: `C126_exact`, `C126_origin_refuted`, `C126_straight_refuted`
- Note: on exact real numbers; uses the axioms of the real numbers of the standard library (sig_forall_dec, sig_not_dec, functional_extensionality_dep, classic); points exactly on an ellipse; for other points only the formulas are modelled

### C127 Tracks of a dataset one by one

For rows grouped by track, iter_track gives each track present once, by increasing number, with all its rows in their order; nb_tracks is the number of tracks present; track_slice gives bounds which select exactly the rows of the track, an empty slice for a number which is not used, an error over the greatest number, and counts negative numbers from the greatest one. As long as the rows do not change, every sequence of requests gets the answers of a new object. After append on an object which was already asked, iter_track, track_slice and nb_tracks go on answering for the former rows; an empty dataset asked for its number of tracks keeps answering 0. For rows in the order of tracks, the age is the rank over the last rank, from 0 for the first row to 100 for the last one, without value for tracks of one row.

- Code: src/py_eddy_tracker/observations/tracking.py: TrackEddiesObservations.track_slice; src/py_eddy_tracker/observations/tracking.py: TrackEddiesObservations.iter_track; src/py_eddy_tracker/observations/tracking.py: TrackEddiesObservations.nb_tracks; src/py_eddy_tracker/observations/tracking.py: TrackEddiesObservations.age; src/py_eddy_tracker/observations/observation.py: EddiesObservations.append; src/py_eddy_tracker/observations/observation.py: EddiesObservations.__add__
- Approach: Iter_model.v: an object is its rows with the tables that it keeps; tables of C21, insertion of C33.
- Status: proved
- Theorems: `C127_tracks`, `C127_kept`, `C127_stale_refuted`, `C127_empty_refuted`, `C127_age`
- Note: exact rationals for the age; rows of the same fields

### C128 Costs by common area, overlap and union of polygons

cost_function_common_area gives one cost between 0 and 1 for each pair of contours, masked exactly when it is 1: boxes apart or no common area, the second contour being moved by whole turns near the first one when their first points are more than 180 degrees apart; it is 0 exactly when one of the areas is all common. Boxes are compared before this move: contours whose widths make at most 180 degrees together and whose first points are more than 180 degrees apart are always masked, even on the same place. polygon_overlap gives one score between 0 and 1 for each polygon, 0 without common area; on the smallest area it is 1 when one contains the other, on the union when both are equal; the union score is never the greatest, scores do not change when the polygons are swapped, and the call fails exactly when a division is by a null area. merge gives the contours of the union of all the polygons given, each after a nan, and fails without polygon; shape_polygon gives such a union for each track present, by increasing number.

- Code: src/py_eddy_tracker/observations/observation.py: EddiesObservations.cost_function_common_area; src/py_eddy_tracker/poly.py: create_vertice; src/py_eddy_tracker/poly.py: merge; src/py_eddy_tracker/poly.py: polygon_overlap; src/py_eddy_tracker/observations/tracking.py: TrackEddiesObservations.shape_polygon
- Approach: Ovl_model.v with the library of polygons as parameters; tracks of C127.
- Status: proved
- Theorems: `C128_cost`, `C128_seam_refuted`, `C128_overlap`, `C128_merge`, `C128_shapes`
- Note: exact rationals; areas, intersections and unions of the library Polygon are parameters with the usual laws of areas; costs stored with 32 bits are not modelled

### C129 Azimuth of the tracks

For rows grouped by track, get_azimuth gives one value for each track present, by increasing number, over -90 and up to 270 degrees: 90 degrees more than the direction, clockwise from the north, of the great circle from the place of the first row to that of the last one. A track to the north along a meridian, or of one row, has 90, to the south 270, to the east on the equator 180, to the west 0. With the option equatorward the sign changes for the tracks which start in the south. The sign is that of the documentation (positive to the pole, negative to the equator) only for tracks which end to the west: a track straight to the equator from the north has 270 and a track straight to the south pole from the south has -270, and every track which ends to the east has over 90 in the north.

- Code: src/py_eddy_tracker/observations/tracking.py: TrackEddiesObservations.get_azimuth
- Approach: Az_model.v: real trigonometry of the standard library over the tables of C127; the direction is specified by the components of the last place on the vectors to the north and to the east at the first one.
- Status: proved
- Theorems: `C129_azimuth`, `C129_directions`, `C129_sign_refuted`
- Note: real numbers of the standard library (axioms listed in DESIGN.md)

### C130 Centred differences of a field

compute_finite_difference, for every width of one or more: in latitude and in longitude, each value is the difference of the values one width after and one width before over the distance between the two places (at the latitude, for longitudes), nan where one of them is nan or out of the grid; with wrap and a width up to the number of columns, the columns go on after the last one. On a regular grid the slopes of an affine field are exact. A width which is not positive is not refused: 0 is an error of shapes, and -k over half of the rows gives, in the middle rows, the slope with the opposite sign times (number of rows - k) / k; with wrap, a width over the number of columns gives 0 everywhere.

- Code: src/py_eddy_tracker/dataset/grid.py: RegularGridDataset.compute_finite_difference; src/py_eddy_tracker/dataset/grid.py: RegularGridDataset.xstep; src/py_eddy_tracker/dataset/grid.py: RegularGridDataset.ystep
- Approach: Fdif_model.v: slices of numpy with their bounds and their errors of shape, on real numbers.
- Status: proved
- Theorems: `C130_latitude`, `C130_longitude`, `C130_wrap`, `C130_slope`, `C130_width_refuted`
- Note: real numbers of the standard library (axioms listed in DESIGN.md)

### C131 Name and format of the files

write_file uses the name given with the values of path, sign_type and prod_time in place of their marks and, with zarr_flag, every ".nc" of it changed to ".zarr"; the format is zarr with zarr_flag or for a name which ends with ".zarr", else netcdf. load_file reads the file in the format in which it was written exactly when zarr_flag was not used or the name ends with ".nc" or ".zarr": with zarr_flag and another extension the file of zarr is later read as netcdf, and directories with ".nc" in their name are renamed too.

- Code: src/py_eddy_tracker/observations/observation.py: EddiesObservations.write_file; src/py_eddy_tracker/observations/observation.py: EddiesObservations.load_file
- Approach: Fname_model.v: characters of the names, formatting, replacement and choice of the format.
- Status: proved
- Theorems: `C131_written`, `C131_read_back`, `C131_zarr_refuted`, `C131_default`
- Note: names only (no handlers, no members of archives); conversions other than %(key)s and %% are not modelled

### C132 Fields taken from another grid, land and the file written

regrid gives at each place of the grid the value interpolated in the other grid, masked exactly when there is none, keeps the other fields, and is an error exactly when the other grid does not know the variable. clean_land masks exactly the values already masked and those whose nearest pixel of land is not 0 or is out of the land grid; the others are kept. Written after a regrid under the same name, the file has the field beside all the variables of the grid; under a new name the file has it under the former name and nothing under the new one, and writing fails when the grid has a variable of the former name.

- Code: src/py_eddy_tracker/dataset/grid.py: RegularGridDataset.regrid; src/py_eddy_tracker/dataset/grid.py: RegularGridDataset.clean_land; src/py_eddy_tracker/dataset/grid.py: GridDataset.write
- Approach: Regrid_model.v: variables by name with their masked arrays; the interpolation is a parameter.
- Status: proved
- Theorems: `C132_regrid`, `C132_land`, `C132_written`, `C132_new_name_refuted`
- Note: interpolation is a parameter, exact rationals; coordinate variables and shapes of arrays are not modelled

### C133 Networks or segments found in another atlas

identify_in gives each network (or segment) of at least size_min observations, and not greater than all those of the other atlas, exactly once, with one of the other atlas which has exactly the same observations (in any order), or -1; none of the other atlas is given twice, and -1 is given only when all the equal ones are given to others. The greater ones are left out of the result. The call is an error exactly when nothing is compared, or when the sizes never decrease from a number to the next (one network alone, for instance; a number not used counts for 0) and one of these sizes is not in the other atlas which has a greater one, even if there are equal networks.

- Code: src/py_eddy_tracker/observations/network.py: NetworkObservations.identify_in; src/py_eddy_tracker/observations/network.py: NetworkObservations.network_size; src/py_eddy_tracker/observations/network.py: NetworkObservations.segment_size; src/py_eddy_tracker/observations/network.py: same_position; src/py_eddy_tracker/observations/observation.py: EddiesObservations.align_on
- Approach: Ident_model.v: sizes, aligned iteration, selection of the networks of one size, items and targets; on Obs_model.v, NetSeg_model.v and NetCmp_model.v.
- Status: proved
- Theorems: `C133_identified`, `C133_error`, `C133_refuted`, `C133_greatest_refuted`
- Note: labels stand for networks or unique numbers of segments; equality of floats is equality of integers (no nan)

### C134 Dates given as text

A date of the calendar written YYYYMMDD, YYYYMMDDHHMMSS or YYYYMMDDTHHMMSS is read as this date. A text which is accepted is a year of four digits then the numbers of the result in this order, with one or two digits each, and the result exists in the calendar; eight digits are accepted only as YYYYMMDD. But a date followed by an hour alone, or by an hour and a minute, is not refused: YYYYMMDDHH with a day of 10 to 31 is read with the first digit of the day as the day, the second as the hour and the two digits of the hour as a minute and a second, and YYYYMMDDHHMM is read with the two digits of the minute as a minute and a second. Six digits are accepted only as a month and a day of one digit each, so YYYYMM is refused but for November and December, which are read as the first and the second of January.

- Code: src/py_eddy_tracker/__init__.py: identify_time; src/py_eddy_tracker/appli/eddies.py: browse_dataset_in
- Approach: Time_model.v: expressions of the directives of strptime with their order and backtracking, calendar, the three models.
- Status: proved
- Theorems: `C134_date`, `C134_date_time`, `C134_read`, `C134_eight`, `C134_six`, `C134_month_refuted`, `C134_hours_refuted`, `C134_minutes_refuted`
- Note: a text is digits, T, spaces and other characters; the expressions are those of the standard library of python 3 for these directives

### C135 Date of a file of the tracking command

The tracking command dates a file by digits of its path found between an underscore, after a slash, and one character followed by n or z; when the path has such digits some are read. A file dir/name_YYYYMMDD.nc (or .zarr) whose last underscore is this one has this date, whatever the name and the directory. But a file given without directory, or named with the form YYYYMMDDTHHMMSS, gets no date: its item in the list of dates is not written and holds whatever the memory held, and a file named with YYYYMMDDHH gets another date.

- Code: src/py_eddy_tracker/appli/eddies.py: browse_dataset_in; src/py_eddy_tracker/appli/eddies.py: track; src/py_eddy_tracker/__init__.py: identify_time
- Approach: Fdate_model.v: the expression of the command with its backtracking, on Time_model.v.
- Status: proved
- Theorems: `C135_read`, `C135_date`, `C135_hours_refuted`, `C135_directory_refuted`, `C135_letter_refuted`
- Note: paths of printable characters without quote and of at most 500 bytes; a date not written in numpy's empty array is the value Unset

### C136 Numbers of the comparison of two atlases of networks

The comparison of two atlases (run_compare), when it ends, gives: the number and the total size of the networks of the reference, of two observations or more, which have exactly the observations of a network of the other atlas; the number and the total size of those of them whose segments, except those longer than all the segments of the networks found in the other atlas, all have the observations of a segment of these networks; the number and the total size of the segments of the reference which have the observations of a segment of the other atlas. A network may so be counted as having the same segments though it has not; without a common network the comparison is an error.

- Code: src/py_eddy_tracker/appli/network.py: run_compare; src/py_eddy_tracker/observations/network.py: NetworkObservations.identify_in; src/py_eddy_tracker/observations/network.py: NetworkObservations.networks; src/py_eddy_tracker/observations/network.py: NetworkObservations.network_size; src/py_eddy_tracker/observations/network.py: NetworkObservations.segment_size; src/py_eddy_tracker/observations/network.py: NetworkObservations.unique_segment_to_id
- Approach: Ncmp_model.v: the six numbers of run_compare, on Ident_model.v (identify_in), NetSeg_model.v (networks) and NetGroup_model.v (unique numbers of segments).
- Status: proved
- Theorems: `C136_numbers`, `C136_error`, `C136_segments_refuted`
- Note: the checks of next and previous observations, only printed, are not modelled

### C137 Smoothing of the positions

position_filter ends, changes only the longitude and the latitude, and gives each observation a longitude and a latitude between the least and the greatest of those of its own track (of its own segment for networks) at most the sum of the two half windows away in time. Longitudes are averaged as plain numbers: a track which crosses the cut of the longitudes is moved to the other side of the globe. The result for a track depends on its place in the dataset, since the first and the last rows of the dataset are left out of the windows of the other rows.

- Code: src/py_eddy_tracker/observations/tracking.py: TrackEddiesObservations.position_filter; src/py_eddy_tracker/observations/tracking.py: TrackEddiesObservations.median_filter; src/py_eddy_tracker/observations/tracking.py: TrackEddiesObservations.loess_filter; src/py_eddy_tracker/observations/network.py: NetworkObservations.position_filter; src/py_eddy_tracker/observations/network.py: NetworkObservations.median_filter; src/py_eddy_tracker/observations/network.py: NetworkObservations.loess_filter
- Approach: Smooth_model.v: the two filters in turn on longitude and latitude, on TrackObs_model.v and NetGroup_model.v.
- Status: proved
- Theorems: `C137_tracks`, `C137_segments`, `C137_cut_refuted`, `C137_place_refuted`
- Note: exact rationals

### C138 Relatives of the segments of an event

find_segments_relative gives exactly the rows, in the order of the dataset and with their links when both ends are given, of the segments reached by at most the number of events asked for from the segment of the observation or, when it is given, from that of the stopped observation. A stopped observation of another network is not refused: the segment with the same number in the network of the first observation is taken instead.

- Code: src/py_eddy_tracker/observations/network.py: NetworkObservations.find_segments_relative; src/py_eddy_tracker/observations/network.py: NetworkObservations.network; src/py_eddy_tracker/observations/network.py: NetworkObservations.relatives
- Approach: Rel_model.v: extraction of the network, search of the segments, relatives (NetSeg_model.v).
- Status: proved
- Theorems: `C138_relatives`, `C138_other_network_refuted`

### C139 First come first served association

The association row by row with one link per target (multiple_link false, the default) returns, for every matrix of costs with a row and a column, exactly the links of the rule: rows in order, each row takes its cheapest allowed target (the first on equal costs) among those no earlier row took. So a link is always allowed, an observation and a target have at most one link, and an allowed link is left out only when its row has another one or its target was taken earlier. The result depends on the order of the observations. A matrix with no row or no column is an error.

- Code: src/py_eddy_tracker/observations/observation.py: EddiesObservations.solve_first
- Approach: Solver_model.v (solve_first with one link per target); invariant over the rows of the reduced matrix (First_props.v).
- Status: proved
- Theorems: `C139_first_come`, `C139_first_come_unique`, `C139_order_refuted`, `C139_empty`

### C140 What an animation of an atlas shows

Whatever the keys pressed and their order, each drawing of an animation has one line width per contour worked out from the date of this very contour, one colour per contour taken from the same observation, the labels of exactly the observations of the date shown and the contours of all of them. Without a key it shows the dates one day after another from the day after the first one to the first one after the last one; each drawing shows the contours of the date and those of the last nb_step days which had observations, which are the nb_step days before when every day has some, with widths between 0 and 2.5. Days without observations make contours stay longer, with negative widths. The observations of the first date are never shown unless the left key is used, and a film leaves out the last date. The left key shows the day before when both days have observations; after a day without observations it takes away one day too many, and without colours it is an error.

- Code: src/py_eddy_tracker/appli/gui.py: Anim.update; src/py_eddy_tracker/appli/gui.py: Anim.show; src/py_eddy_tracker/appli/gui.py: Anim.keyboard; src/py_eddy_tracker/appli/gui.py: Anim.func_animation
- Approach: Anim_model.v: state machine of the frames kept, the keys and the display loop; invariants over all the schedules.
- Status: proved
- Theorems: `C140_in_step`, `C140_play`, `C140_window`, `C140_width_refuted`, `C140_first_day`, `C140_left`, `C140_left_gap_refuted`, `C140_left_no_color_refuted`, `C140_film`

### C141 What the interactive viewer shows

Whatever the keys, the moves of the wheel and of the pointer, the drags of the time line, the pans and the changes of size, the map shows for each dataset exactly the observations of the date of the viewer strictly inside the box the map had at the last change of date, with their contours, the positions of their tracks up to the date and from the date on, cut between tracks; a pan alone draws nothing anew. The box after a pan or a change of size has the ratio of the axes and the same centre and contains the box before. Nothing fails when the datasets are made of tracks. With at most 50 eddies all have their number written; with more, those above a threshold, at least 50, fewer than 50 of them strictly above the threshold. The pointer over a contour gives the right observation and its whole track when contours have 50 points; with any other number of points and two contours drawn some point gives another observation or an error. The note beside the pointer is on the figure exactly when the last dataset is under the pointer, so it is hidden when only another dataset is. The dates of the viewer bound all the dates, but the last one is never before 1950-01-01.

- Code: src/py_eddy_tracker/gui.py: GUI.update; src/py_eddy_tracker/gui.py: GUI.indexs; src/py_eddy_tracker/gui.py: GUI.move; src/py_eddy_tracker/gui.py: GUI.get_infos; src/py_eddy_tracker/gui.py: GUI.keyboard; src/py_eddy_tracker/gui.py: GUI.release; src/py_eddy_tracker/gui.py: GUI.scroll; src/py_eddy_tracker/gui.py: GUI.set_initial_values; src/py_eddy_tracker/gui.py: GUIAxes.end_pan
- Approach: View_model.v: state machine of the date, the box, what is drawn and the note; invariant over all the sequences of events.
- Status: proved
- Theorems: `C141_shown`, `C141_pan`, `C141_total`, `C141_period`, `C141_dates`, `C141_texts`, `C141_texts_drawn`, `C141_pointed`, `C141_pointed_50_refuted`, `C141_infos`, `C141_note`, `C141_pan_stale_refuted`, `C141_note_refuted`, `C141_pointed_refuted`, `C141_old_dates_refuted`

### C142 Files and table of a quick comparison of identifications

When the names of the files compared stay different once their slashes are replaced and hold no percent sign, the comparison with an output folder writes for each of them sixteen files, which hold exactly the observations of each of the eight families of the file and of the reference, and changes no other file. Two names which differ only by a slash against an underscore share a folder: the files of the second one replace those of the first one. A percent sign in a name is an error. In the table, in numbers or in areas, the percentages of the columns nomatch, low, intermediate, high and multi_match make 100 and those of parent, twin and complex make the one of multi_match.

- Code: src/py_eddy_tracker/appli/eddies.py: quick_compare; src/py_eddy_tracker/appli/eddies.py: run_compare; src/py_eddy_tracker/appli/eddies.py: display_compare; src/py_eddy_tracker/appli/eddies.py: get_group
- Approach: Qcmp_model.v: loops over the names and the families over a file system; what each name holds at the end, by induction on the writes; partition of the rows for the table.
- Status: proved
- Theorems: `C142_files`, `C142_percents`, `C142_same_folder_refuted`, `C142_percent_refuted`

### C143 Boxes of the low pass filter of a curvilinear grid

Before it filters a curvilinear grid, the low pass filter averages its nodes in the boxes of a regular grid whose step is the cut-off over 111 and over the factor. The boxes begin at the lowest longitude and latitude of the nodes; they reach the highest longitude, and the highest latitude when one more step does not pass 89; else they end less than one step below 89. No position is in two boxes, every node up to the end of the last row is in one. The value of a box is the mean of the nodes it holds which are not masked, so between the smallest and the largest of them, and a box without such a node is masked. Nodes near the pole which pass the last row are left out, though they are not masked: their value changes nothing.

- Code: src/py_eddy_tracker/dataset/grid.py: UnRegularGridDataset._low_filter; src/py_eddy_tracker/dataset/grid.py: UnRegularGridDataset.bounds
- Approach: Lowf_model.v: arange with a step, the search of the edges of numpy histogram2d, sums and counts; the count of edges below a value gives the box.
- Status: proved
- Theorems: `C143_corners`, `C143_value`, `C143_one_box`, `C143_pole_refuted`

### C144 From the files of identifications to the networks

EddyNetworkGroup followed by EddyNetworkBuildPath, on files of identifications in time order with at least two dates, ends and gives a well formed network. Each observation of the files is in it exactly once with its date and its fields. Two observations are in the same network, other than 0, if and only if a chain of observations found to overlap, at most the first window of files apart, joins them; network 0 holds exactly those found to overlap with none. Two rows linked as previous and next overlap, with a positive cost.

- Code: src/py_eddy_tracker/appli/network.py: build_network; src/py_eddy_tracker/appli/network.py: divide_network; src/py_eddy_tracker/observations/network.py: Network.group_observations; src/py_eddy_tracker/observations/network.py: Network.build_dataset; src/py_eddy_tracker/observations/network.py: NetworkObservations.from_split_network; src/py_eddy_tracker/observations/tracking.py: TrackEddiesObservations.split_network
- Approach: Pipe_model.v: the composition of NetGroup_model.v, Split_model.v and Net_model.v; the theorems on each step are put together, with the permutation of the rows by the sort.
- Status: proved
- Theorems: `C144_networks`

### C145 Spectra of a regular grid

With positive steps, an area of two columns and two rows or more, and a row whose spectrum holds no nan, spectrum_lonlat ends. Along the latitudes it gives the mean of the spectra of the columns which hold no nan, value by value, and a nan when there is none, at the wavelengths of these spectra. Along the longitudes the frequencies are even from 0 to the lowest of the last frequencies of the rows kept, so none is outside of the spectrum of a row, and the power is the mean of what each of these rows has there, on the line between two of its frequencies. The column and the row of the upper corner are not in the area. When each row has a nan, as it does when one column of the area holds nan only, the call fails whatever the other columns hold. A grid divided by itself with the default scaling gives 1 wherever the quotient is a number; with another scaling it does not, since the reference is always computed with the default one. What is stored under the mask counts. A reference of another step divides powers of other wavelengths.

- Code: src/py_eddy_tracker/dataset/grid.py: RegularGridDataset.spectrum_lonlat; src/py_eddy_tracker/dataset/grid.py: RegularGridDataset.nearest_grd_indice
- Approach: Psd_model.v: welch and the distances are parameters; the common range of the frequencies is within that of each row, so the interpolation never meets its fill value.
- Status: proved
- Theorems: `C145_spectra`, `C145_area`, `C145_ratio`, `C145_hole`, `C145_self`, `C145_scaling_refuted`, `C145_mask_refuted`, `C145_reference_refuted`

### C146 The file of correspondences

Correspondences between files where each step has a link are saved, and loaded again with the same links in the same order, each value in its field, the same number of virtual observations, and a next number just above the highest one. But the names of the files are not kept: each is loaded as "In memory file", whatever was given. So two files of correspondences are never joined, since every name is equal to every other and more than one common file is found. A run where a step has no link is saved but can never be loaded, and a run without any link cannot be saved. When correspondences are joined in memory and a step of the second has more links than all those of the first, the outcome cannot be saved. The indices of a link are those of the observations if and only if they are below 65536.

- Code: src/py_eddy_tracker/tracking.py: Correspondances.to_netcdf; src/py_eddy_tracker/tracking.py: Correspondances.from_netcdf; src/py_eddy_tracker/tracking.py: Correspondances.append; src/py_eddy_tracker/tracking.py: Correspondances.merge_correspondance; src/py_eddy_tracker/tracking.py: Correspondances.store_correspondance
- Approach: Corf_model.v: the file is the arrays with masked cells; save then load is the identity on the links, by induction on the steps.
- Status: proved
- Theorems: `C146_round_trip`, `C146_join_refuted`, `C146_empty_step`, `C146_join_save`, `C146_width`

### C147 The command of identification

EddyIdentification detects on the height of the file at the indices asked: the low pass filter of the first wavelength is applied when two are given, then the low pass part of the second one is taken off; a wavelength of 0 is no filter, and one value is the second one. The speeds are never filtered: they are those of the file, or, when both are None, the gradients of the height as it was before any filter. A dimension which is not a coordinate and is not named is read at 0, a name which the variable has not is not looked at, and the last value of a name is kept; a word without exactly one equal sign is refused. Any other count of wavelengths, or of pixel limits, is an error. When one speed only is None the command fails. With --unregular it fails unless the wavelength is 0 and the speeds are in the file, since only regular grids have these filters and these gradients. A height named u or v is replaced by the speed when the speeds are asked of it.

- Code: src/py_eddy_tracker/appli/grid.py: eddy_id; src/py_eddy_tracker/appli/grid.py: identification; src/py_eddy_tracker/appli/grid.py: DictAction.__call__; src/py_eddy_tracker/dataset/grid.py: GridDataset.grid; src/py_eddy_tracker/dataset/grid.py: RegularGridDataset.add_uv
- Approach: Idcmd_model.v: the grid is what it keeps in memory over what is in the file; the filter, the gradients and the detection are parameters.
- Status: proved
- Theorems: `C147_height`, `C147_name_refuted`, `C147_one_speed`, `C147_unregular`, `C147_options`, `C147_indexs`

### C148 Resuming a tracking from its file

A tracking which is stopped, written to a file and resumed from it gives the links and the track numbers of the tracking without stop as soon as the association does not tell an eddy waited for from what the file gives back of it, above all when each is given back as it was. The file gives back the same moves, the same amplitude and radius when they come from files of identifications and at most half a step of the file otherwise (0.05 mm, 25 m), but the positions in single precision, so the positions looked at later are off by that difference. This is enough for other links: eddies whose positions are all exact in single precision are linked in the resumed run and not in the run without stop.

- Code: src/py_eddy_tracker/tracking.py: Correspondances.load_state; src/py_eddy_tracker/tracking.py: Correspondances.to_netcdf; src/py_eddy_tracker/tracking.py: Correspondances.track; src/py_eddy_tracker/observations/observation.py: EddiesObservations.from_netcdf; src/py_eddy_tracker/observations/observation.py: EddiesObservations.to_netcdf; src/py_eddy_tracker/observations/observation.py: EddiesObservations.create_variable
- Approach: Resf_model.v: the run of Corr_model.v, resumed from what is read of the eddies waited for; proved by a simulation between the two runs.
- Status: proved
- Theorems: `C148_same_links`, `C148_exact`, `C148_row`, `C148_resume_refuted`

### C149 Configuration of the tracking command and continuation of a file

EddyTracking takes the files of correspondences of its command line, otherwise those of the section PATHS, otherwise none to continue and the default name; VIRTUAL_LENGTH_MAX is 0 and TRACK_DURATION_MIN 10 when they are not given, numbers being cut towards 0; FILES_PATTERN is required; the directory SAVE_DIR is made when it does not exist, even when the command fails afterwards, but not the directories above it. A command which fails leaves the files of correspondences as they were, so a null name or a name which cannot be completed loses the run, and one which succeeds changes only the file of its output, where the links are. A file to continue is taken exactly when it is there, has links at each step, the same count of virtual eddies and the same class. Its links are then kept as they are, and one step is added for each file of the list after the number of files it was made with: what is in the files before the last two of these is not looked at, and a shorter list is an error. The same command continued with more files gives the links of the command on all the files. But neither the options of the class nor the names of the files are compared: with other options the links are those of neither, and when the first files have been removed the links are put at the wrong dates and join eddies of different tracks, without any error.

- Code: src/py_eddy_tracker/appli/eddies.py: eddies_tracking; src/py_eddy_tracker/appli/eddies.py: track; src/py_eddy_tracker/tracking.py: Correspondances.__init__; src/py_eddy_tracker/tracking.py: Correspondances.load_compatible; src/py_eddy_tracker/tracking.py: Correspondances.load_state; src/py_eddy_tracker/tracking.py: Correspondances.save
- Approach: Tconf_model.v: the configuration as mappings, the files of correspondences as a store by name; the run is that of Corr_model.v and the continuation uses C09.
- Status: proved
- Theorems: `C149_settings`, `C149_directory`, `C149_compatible`, `C149_written`, `C149_kept`, `C149_continued`, `C149_options_refuted`, `C149_files_refuted`

### C150 Timeline of a network

On a network sorted by segment with links inside, display_timeline draws one line for each segment, through the dates of its observations, at the number of the segment, at the mean of the field on the segment or, with the method "all", at the values of the field, times the factor; event_timeline draws exactly one line for each segment whose last observation has a next one, from that observation to it, and one for each segment whose first observation has a previous one, from that observation to it, at the same heights and with the colour of the line of the segment, and puts one mark at the start of each of these lines, the series of marks being returned when they are not empty, splitting first. Colours turn with the segments or follow their numbers; another mode is an error. Several networks are an error. But a field given as an array with the method "all" is an error as soon as one segment splits from another, though the lines of the segments alone are drawn.

- Code: src/py_eddy_tracker/observations/network.py: NetworkObservations.event_timeline; src/py_eddy_tracker/observations/network.py: NetworkObservations.display_timeline; src/py_eddy_tracker/observations/network.py: NetworkObservations.only_one_network
- Approach: Tline_model.v: what is given to the plot; slices of the segments from Obs_model.v through Net_links.v.
- Status: proved
- Theorems: `C150_events`, `C150_array_refuted`, `C150_colors`, `C150_segments`, `C150_several`
- Note: styles of the lines and the conversion of the dates to datetime64 are not modelled

### C151 Command which merges files of tracks

The command MergeEddies succeeds when all its files have rows, the same arrays with the same number of samples and the same other variables which are not basic ones, in the same order, among those asked for (those of the first file by default); with files of different kinds, or one without rows, it fails. Each field of the output has the rows of the files in order, and two rows have the same number of track exactly when they come from the same file with the same number. The sign of the output is the one of the first file. With the variable of rotation, the rows of a file have its rotation: the type of its first row if the file has this variable and it is read, otherwise its title, otherwise its attribute, and cyclonic when there is none. Values are kept when the files are packed like the software does. But a basic variable which is missing in a later file is filled with zeros and one which is missing in the first file is lost, without any error; integers of a file packed otherwise are kept, so its values change; a file which has both types of rotation gets the type of its first row on all its rows when the rotation is asked for; a list of variables without the number of the track makes one track of each file.

- Code: src/py_eddy_tracker/appli/eddies.py: merge_eddies; src/py_eddy_tracker/observations/tracking.py: TrackEddiesObservations.concatenate; src/py_eddy_tracker/observations/observation.py: EddiesObservations.add_rotation_type; src/py_eddy_tracker/observations/observation.py: EddiesObservations.load_from_netcdf; src/py_eddy_tracker/observations/observation.py: EddiesObservations.concatenate
- Approach: Mergec_model.v, on the fields and files of Fields_model.v with stored integers; the order of sets is a parameter.
- Status: proved
- Theorems: `C151_merge`, `C151_different`, `C151_empty`, `C151_values`, `C151_tracks_refuted`, `C151_missing_refuted`, `C151_packing_refuted`, `C151_rotation_refuted`
- Note: types of the columns are not modelled; netcdf files

### C152 Names of the variables and units of a loaded file

Every name which the table of variables gives to a field, the current one or an older one, leads to this field and to no other; no name in the files is the name of another field, and two fields are never written under the same name. eddies[name] and eddies.name give the column of the field for each of its names when the dataset has it, and never a column when it does not; a name of no field gives the error of the class. Loading a netcdf file gives each field the values of the last variable asked which has one of its names, multiplied by the factor between the units of the file and the ones of the software (1 in raw mode, when a unit is missing, when they are written the same way or when one of them is not understood); a basic field which no variable gives is full of zeros, and there is no other field. The load succeeds when every variable asked and every included name is known, the rows have the length of the first dimension found among obs, Nobs, observation and i, and the units are of the same nature; it fails when a name is unknown, no such dimension exists or the units are of another nature. A dataset written under its names and loaded has its values back in any order of the variables. But hasattr raises for the names of a field which the dataset does not have; an included variable given by another name of the field than the one in the file gives zeros without any error; and dates counted from another day than 1950-01-01, whose units the library of units does not read, are kept as they are.

- Code: src/py_eddy_tracker/__init__.py: VAR_DESCR_inv; src/py_eddy_tracker/observations/observation.py: EddiesObservations.__getitem__; src/py_eddy_tracker/observations/observation.py: EddiesObservations.__getattr__; src/py_eddy_tracker/observations/observation.py: EddiesObservations.obs_dimension; src/py_eddy_tracker/observations/observation.py: EddiesObservations.compare_units; src/py_eddy_tracker/observations/observation.py: EddiesObservations.build_var_list; src/py_eddy_tracker/observations/observation.py: EddiesObservations.load_from_netcdf; src/py_eddy_tracker/observations/observation.py: EddiesObservations.to_netcdf
- Approach: Names_model.v: the table in full, dicts of strings, the library of units as two functions; values are exact.
- Status: proved
- Theorems: `C152_names`, `C152_access`, `C152_no_name`, `C152_hasattr_refuted`, `C152_load`, `C152_loads`, `C152_fails`, `C152_round_trip`, `C152_include_refuted`, `C152_dates_refuted`
- Note: packing, slices and the rotation are in other properties

### C153 Summary of a dataset of trajectories

The summary displayed for a dataset of trajectories gives the number of different tracks, the number of observations of the shorter and of the longer track, and the number of filled observations. When the tracks are stored one after the other and numbered from 0 without a gap, the distances by day are the steps between two successive observations of a same track, in kilometres, and the distances by track are the lengths of the paths of the tracks, one for each track; the means are those of these lists. But with an unused number below the greatest one, the last observation but one is taken for the end of a track, so that the mean by track has one distance too many; and the summary of a dataset without rows, or of one row whose number is not 0, raises.

- Code: src/py_eddy_tracker/observations/tracking.py: TrackEddiesObservations.__repr__; src/py_eddy_tracker/observations/tracking.py: TrackEddiesObservations.nb_tracks; src/py_eddy_tracker/observations/tracking.py: TrackEddiesObservations.nb_obs_by_track; src/py_eddy_tracker/observations/tracking.py: TrackEddiesObservations.index_from_track; src/py_eddy_tracker/observations/tracking.py: TrackEddiesObservations.distance_to_next; src/py_eddy_tracker/generic.py: cumsum_by_track
- Approach: Summ_model.v, on the tables and distances of TrackObs_model.v.
- Status: proved
- Theorems: `C153_counts`, `C153_distances`, `C153_gap_refuted`, `C153_raises_refuted`
- Note: the distributions are histograms (C98); areas and layout are not modelled

### C154 Datasets as objects: what is shared, what is kept, what is equal

In any program which loads, copies, appends and changes datasets and never appends to one without rows, an operation changes the rows of no other dataset than the one it is done on, so a copy and its original live apart. Appending changes the object itself, which then has its rows followed by those of the other one, and never the other one. But appending to a dataset without rows makes both share one array: a row changed later in one is changed in the other. The period is the first and last time of the rows when it is asked for the first time, and the number of days follows from it; after that it never changes, so it is wrong once later rows are appended. Two datasets are equal exactly when they have the same sign and the same values row by row, none of them nan; so a dataset with a nan is not equal to itself nor to its copy.

- Code: src/py_eddy_tracker/observations/observation.py: EddiesObservations.insert_observations; src/py_eddy_tracker/observations/observation.py: EddiesObservations.append; src/py_eddy_tracker/observations/observation.py: EddiesObservations.__add__; src/py_eddy_tracker/observations/observation.py: EddiesObservations.__copy__; src/py_eddy_tracker/observations/observation.py: EddiesObservations.copy; src/py_eddy_tracker/observations/observation.py: EddiesObservations.period; src/py_eddy_tracker/observations/observation.py: EddiesObservations.nb_days; src/py_eddy_tracker/observations/observation.py: EddiesObservations.__eq__
- Approach: Objs_model.v: a store of arrays and of objects which point to them; the programs are lists of operations.
- Status: proved
- Theorems: `C154_isolation`, `C154_append`, `C154_shared_refuted`, `C154_copy`, `C154_period`, `C154_period_kept`, `C154_period_stale_refuted`, `C154_equal`, `C154_equal_copy`
- Note: insertion at the end only (elsewhere: C33); the datasets have the same fields

### C155 Band filter of a grid

The band filter of a regular grid gives at each cell the value of the filter at the short wavelength minus the filter at the long wavelength of that filtered grid; a cell masked in one of the two is masked. The band of a constant field is zero wherever it has a value, and adding the same value to all the cells does not change the band, whatever the masks, the kernels, the turn of the longitudes and the extension asked. With kernels without negative weights and with a weight at their centre, no filtered cell comes from a division by zero.

- Code: src/py_eddy_tracker/dataset/grid.py: RegularGridDataset.bessel_band_filter; src/py_eddy_tracker/dataset/grid.py: RegularGridDataset.convolve_filter_with_dynamic_kernel
- Approach: Band_model.v: two runs of the filter of Filt_model.v, the second on the result of the first.
- Status: proved
- Theorems: `C155_band`, `C155_constant`, `C155_level`, `C155_defined`
- Note: the kernels are parameters; a grid with a nan after the first filter is not followed; values are exact rationals

### C156 Summary of an atlas of networks

The summary displayed for a sorted atlas of networks counts each network and each segment once, and all the observations; the biggest size is that of one of the networks and none is larger; the networks of more than 50000 observations are counted exactly, with the observations they hold; the trash is the number of observations of network 0, zero when there is no such network. The rates are these numbers by year of 365.25 days. But network 0 is counted with the networks, and is shown as the biggest one when it has the most observations; with all the observations at one date there is no rate, and the summary of an atlas without rows raises.

- Code: src/py_eddy_tracker/observations/network.py: NetworkObservations.__repr__; src/py_eddy_tracker/observations/network.py: NetworkObservations.ref_index; src/py_eddy_tracker/observations/network.py: NetworkObservations.network_size
- Approach: Atlas_model.v, on the tables of NetTab_model.v.
- Status: proved
- Theorems: `C156_counts`, `C156_displayed`, `C156_rates`, `C156_trash_refuted`, `C156_empty_refuted`
- Note: the events are counted by C74; layout and rounding are not modelled

### C157 Datasets written in an open file

A dataset written in a new file gives a file whose dimensions are its number of rows and of samples, whose attributes are its lists of extra and array variables, and whose variables are its fields, each once, in the order of their names, with their values; the chunks of a variable of two dimensions hold at most 400000 values and as many rows as they can, and at least one exactly when a row holds no more than 400000 values and there are rows. Whatever is written after in the same file, accepted or refused, the dimensions keep their sizes and the variables already there stay as they are. A dataset is accepted in the same file exactly when it has the same number of rows, the same number of samples if it has any, and names which are neither in the file nor given twice. But a dataset refused for its number of samples has already replaced the list of extra variables of the file, which then does not describe its variables.

- Code: src/py_eddy_tracker/observations/observation.py: EddiesObservations.to_netcdf; src/py_eddy_tracker/observations/observation.py: EddiesObservations.netcdf_create_dimensions; src/py_eddy_tracker/observations/observation.py: EddiesObservations.create_variable
- Approach: Ncw_model.v: the dimensions, lists, variables and chunks of a file while datasets are written in it, errors included.
- Status: proved
- Theorems: `C157_written`, `C157_kept`, `C157_accepted`, `C157_refused_refuted`
- Note: the packing of the values is C33 and following; the compression and the other attributes are not modelled

### C158 Copies of a table of correspondences are independent

The copy of a table of correspondences holds the same arrays as the table, with the observations of its tracks counted anew. Yet any copies and any selections of long or short tracks in other tables, in any number and order, leave a table as it is: its correspondences, its counts and its number of tracks. A selection in a table gives what it gives on the values of this table alone, and fails exactly when it fails on them. So the command which selects the short tracks in a copy and the long ones in the table itself gets both selections of the whole table, whatever the order in which they are done.

- Code: src/py_eddy_tracker/tracking.py: Correspondances._copy; src/py_eddy_tracker/tracking.py: Correspondances.longer_than; src/py_eddy_tracker/tracking.py: Correspondances.shorter_than
- Approach: Cpy_model.v: a heap of arrays and the tables which hold their addresses; refinement of the selections of Corr_model.v.
- Status: proved
- Theorems: `C158_selection`, `C158_independent`, `C158_copied`, `C158_split`
- Note: what a selection keeps is proved with the other properties of the correspondences

### C159 A dataset written and read back

A dataset written in a new file and read back whole, as the virtual observations are when a tracking is resumed, keeps its number of rows and of samples, its lists of extra and array variables, and each of its columns, with no other field than those of its class and of its lists; a field of the class which it did not have comes back with zeros, without any error. A variable which is neither a field of the class nor in the lists makes the reading fail. But the text of the extra variables is left out when it has one letter: a dataset whose only extra variable is n is written and cannot be read back.

- Code: src/py_eddy_tracker/observations/observation.py: EddiesObservations.from_netcdf; src/py_eddy_tracker/observations/observation.py: EddiesObservations.elements; src/py_eddy_tracker/observations/observation.py: EddiesObservations.dtype; src/py_eddy_tracker/observations/observation.py: EddiesObservations.to_netcdf
- Approach: Ncr_model.v reads the files of Ncw_model.v; composition of both.
- Status: proved
- Theorems: `C159_read_back`, `C159_short_name_refuted`, `C159_unlisted`
- Note: the packing of the values is not modelled here; a name stands for a field and for its variable

## Parts of the code which are modelled and which are not

Function by function, with line numbers. Modelled: cited by a comment of a model file or by an anchor of a property; the comment tells what is simplified. Not modelled: nothing is proved about it.

- __init__.py
  - modelled: `ColoredFormatter.__init__` (56-58), `EddyParser.__init__` (74-76), `identify_time` (114-120)
  - not modelled: `ColoredFormatter.format` (60-68), `EddyParser.add_base_argument` (78-86), `EddyParser.memory_arg` (88-93), `EddyParser.contour_intern_arg` (95-100), `EddyParser.parse_args` (102-108), `start_logger` (35-44)
- _version.py
  - not modelled: `get_keywords` (23-33), `get_config` (47-58), `register_vcs_handler` (69-77), `run_command` (80-125), `versions_from_parentdir` (128-153), `git_get_keywords` (157-181), `git_versions_from_keywords` (185-249), `git_pieces_from_vcs` (253-387), `plus_or_dot` (390-394), `render_pep440` (397-419), `render_pep440_branch` (422-449), `pep440_split_post` (452-459), `render_pep440_pre` (462-483), `render_pep440_post` (486-510), `render_pep440_post_branch` (513-539), `render_pep440_old` (542-561), `render_git_describe` (564-581), `render_git_describe_long` (584-601), `render` (604-637), `get_versions` (640-683)
- appli/eddies.py
  - modelled: `merge_eddies` (45-71), `eddies_tracking` (151-223), `browse_dataset_in` (226-296), `track` (299-381), `get_group` (384-449), `run_compare` (452-466), `display_compare` (469-522), `quick_compare` (525-582)
  - not modelled: `eddies_add_circle` (25-42), `get_frequency_grid` (74-98), `display_infos` (101-148)
- appli/grid.py
  - modelled: `DictAction.__call__` (51-58), `eddy_id` (61-154), `identification` (157-183)
  - not modelled: `filtering_parser` (11-32), `grid_filtering` (35-47)
- appli/gui.py
  - modelled: `Anim.__init__` (25-43), `Anim.show` (123-150), `Anim.next` (152-154), `Anim.prev` (156-158), `Anim.func_animation` (160-167), `Anim.update` (169-227), `Anim.keyboard` (238-257)
  - not modelled: `Anim.setup` (45-109), `Anim.reset_bliting` (111-121), `Anim.draw_contour` (229-236), `anim` (260-342), `gui_parser` (345-350), `guieddy` (353-362)
- appli/misc.py
  - not modelled: `zarr_header_parser` (10-13), `zarrdump` (16-20)
- appli/network.py
  - modelled: `build_network` (17-61), `divide_network` (64-105), `subset_network` (108-152), `run_compare` (213-280)
  - not modelled: `quick_compare` (155-210), `display_compare` (283-302)
- data/__init__.py
  - not modelled: `get_demo_path` (19-20), `get_remote_demo_sample` (23-46)
- dataset/grid.py
  - modelled: `GridDataset.__init__` (269-309), `GridDataset.populate` (311-314), `GridDataset.clean` (316-327), `GridDataset.is_centered` (330-340), `GridDataset.load_general_features` (342-366), `GridDataset.write` (368-402), `GridDataset.load` (404-419), `GridDataset.c_to_bounds` (430-441), `GridDataset.setup_coordinates` (443-473), `GridDataset.is_circular` (475-477), `GridDataset.variables` (490-491), `GridDataset.copy` (493-508), `GridDataset.add_grid` (510-517), `GridDataset.grid` (519-566), `GridDataset.high_filter` (599-606), `GridDataset.low_filter` (608-615), `GridDataset.bounds` (618-625), `GridDataset.eddy_identification` (627-980), `GridDataset.get_uavg` (982-1043), `GridDataset.get_amplitude` (1058-1075), `UnRegularGridDataset.load` (1086-1101), `UnRegularGridDataset.bounds` (1104-1106), `UnRegularGridDataset.bbox_indice` (1108-1115), `UnRegularGridDataset.get_pixels_in` (1117-1121), `UnRegularGridDataset.normalize_x_indice` (1123-1125), `UnRegularGridDataset.nearest_grd_indice` (1127-1131), `UnRegularGridDataset.compute_pixel_path` (1133-1134), `UnRegularGridDataset._low_filter` (1144-1185), `UnRegularGridDataset.speed_coef_mean` (1187-1194), `RegularGridDataset.__init__` (1211-1213), `RegularGridDataset.setup_coordinates` (1215-1229), `RegularGridDataset.bbox_indice` (1259-1269), `RegularGridDataset.get_pixels_in` (1271-1288), `RegularGridDataset.normalize_x_indice` (1290-1291), `RegularGridDataset.nearest_grd_indice` (1293-1296), `RegularGridDataset.xstep` (1299-1301), `RegularGridDataset.ystep` (1304-1306), `RegularGridDataset.compute_pixel_path` (1308-1320), `RegularGridDataset.clean_land` (1322-1328), `RegularGridDataset.is_circular` (1330-1336), `RegularGridDataset.check_order` (1339-1342), `RegularGridDataset.get_step_in_km` (1344-1354), `RegularGridDataset.estimate_kernel_shape` (1356-1373), `RegularGridDataset.finalize_kernel` (1375-1386), `RegularGridDataset.kernel_lanczos` (1388-1399), `RegularGridDataset.kernel_loess` (1401-1417), `RegularGridDataset.kernel_bessel` (1419-1431), `RegularGridDataset._low_filter` (1433-1437), `RegularGridDataset.convolve_filter_with_dynamic_kernel` (1439-1532), `RegularGridDataset.lanczos_high_filter` (1534-1546), `RegularGridDataset.lanczos_low_filter` (1548-1558), `RegularGridDataset.bessel_band_filter` (1560-1568), `RegularGridDataset.bessel_high_filter` (1570-1593), `RegularGridDataset.bessel_low_filter` (1595-1604), `RegularGridDataset.spectrum_lonlat` (1606-1671), `RegularGridDataset.compute_finite_difference` (1673-1703), `RegularGridDataset.compute_stencil` (1705-1788), `RegularGridDataset.add_uv` (1844-1906), `RegularGridDataset.speed_coef_mean` (1908-1919), `RegularGridDataset.contour` (1948-1966), `RegularGridDataset.regrid` (1968-1988), `RegularGridDataset.interp` (1992-2007), `RegularGridDataset.uv_for_advection` (2009-2042), `RegularGridDataset.advect` (2044-2063), `RegularGridDataset.filament` (2065-2105), `GridCollection.__init__` (2344-2345), `GridCollection.from_netcdf_list` (2361-2372), `GridCollection.are_loaded` (2375-2376), `GridCollection.shift_files` (2382-2391), `GridCollection.interp` (2393-2415), `GridCollection.time` (2422-2423), `GridCollection.__getitem__` (2430-2435), `GridCollection.filament` (2437-2511), `GridCollection.reset_grids` (2513-2518), `GridCollection.advect` (2520-2595), `GridCollection.get_next_time_step` (2597-2603), `GridCollection.get_previous_time_step` (2605-2613), `GridCollection.path` (2615-2635), `raw_resample` (78-84), `lat` (99-100), `mean_on_regular_contour` (126-135), `fit_circle_path` (138-146), `_circle_from_equal_area` (150-163), `_fit_circle_path` (167-183), `pixels_in` (204-209), `bbox_slice` (213-216), `nb_pixel` (227-230), `advect_rk4` (2109-2208), `advect` (2212-2251), `compute_pixel_path` (2255-2320), `advect_t` (2639-2687), `get_uv_quad` (2691-2718), `get_grid_indices` (2722-2742), `interp_uv` (2746-2764), `advect_t_rk4` (2768-2891), `compute_stencil` (2902-3013)
  - not modelled: `GridDataset.get_mask` (422-427), `GridDataset.units` (479-487), `GridDataset.grid_tiles` (568-597), `GridDataset._gaussian_filter` (1046-1055), `UnRegularGridDataset.init_pos_interpolator` (1136-1142), `UnRegularGridDataset.init_speed_coef` (1196-1197), `RegularGridDataset.with_array` (1232-1257), `RegularGridDataset.add_uv_lagerloef` (1790-1842), `RegularGridDataset.init_speed_coef` (1921-1924), `RegularGridDataset.display` (1926-1946), `GridCollection.from_netcdf_cube` (2348-2358), `GridCollection.__repr__` (2378-2380), `GridCollection.__iter__` (2417-2419), `GridCollection.period` (2426-2428), `mean_coordinates` (88-90), `lon` (94-95), `uniform_resample_stack` (109-115), `value_on_regular_contour` (119-122), `_get_pixel_in_unregular` (187-198), `pixels_index` (220-223), `has_masked_value` (2324-2328), `has_value` (2332-2340)
- eddy_feature.py
  - modelled: `Amplitude.__init__` (50-109), `Amplitude.all_pixels_below_h0` (115-157), `Amplitude.all_pixels_above_h0` (159-201), `Contours.get_next` (322-333), `Contours.check_closing` (335-336), `Contours.find_wrapcut_path_and_join` (338-398), `Contours.__init__` (400-533), `Contours.iter` (535-536), `Contours.cvalues` (539-540), `Contours.levels` (543-544), `Contours.get_index_nearest_path_bbox_contain_pt` (546-570), `Contours.label_contour_unused_which_contain_eddies` (690-724), `detect_local_minima_` (205-285), `index_from_nearest_path_with_pt_in_bbox_` (728-794)
  - not modelled: `Amplitude.within_amplitude_limits` (111-113), `Contours.display` (572-688)
- featured_tracking/area_tracker.py
  - modelled: `AreaTracker.merge` (26-29), `AreaTracker.tracking` (37-49), `AreaTracker.propagate` (51-65), `mask_cmin` (69-75)
  - not modelled: `AreaTracker.__init__` (22-24), `AreaTracker.needed_variable` (32-35)
- featured_tracking/old_tracker_reference.py
  - modelled: `CheltonTracker.cost_function` (18-20), `CheltonTracker.mask_function` (22-42), `CheltonTracker.across_ground` (45-54), `CheltonTracker.solve_function` (56-58), `CheltonTracker.post_process_link` (60-76), `check_ratio` (80-105)
- generic.py
  - modelled: `count_consecutive` (30-46), `reverse_index` (50-62), `build_index` (66-92), `hist_numba` (96-98), `distance_grid` (102-136), `distance` (140-157), `cumsum_by_track` (161-180), `interp2d_nearest` (205-234), `interp2d_bilinear` (238-300), `uniform_resample` (304-327), `flatten_line_matrix` (331-355), `simplify` (359-413), `split_line` (417-441), `wrap_longitude` (445-499), `coordinates_to_local` (503-528), `local_to_coordinates` (532-555), `nearest_grd_indice` (559-573), `bbox_indice_regular` (577-600), `window_index` (619-656)
  - not modelled: `interp2d_geo` (184-201), `build_circle` (603-615)
- gui.py
  - modelled: `GUIAxes.end_pan` (42-57), `GUI.__init__` (82-90), `GUI.set_initial_values` (92-98), `GUI.now` (101-102), `GUI.now` (105-106), `GUI.period` (109-110), `GUI.bbox` (113-114), `GUI.bbox` (117-119), `GUI.indexs` (121-125), `GUI.update` (195-262), `GUI.keyboard` (272-281), `GUI.press` (283-286), `GUI.get_infos` (288-310), `GUI.move` (312-361), `GUI.release` (363-367), `GUI.scroll` (369-376), `GUI.adjust` (378-380), `GUI.show` (382-384), `PlatCarreAxes.__init__` (27-29)
  - not modelled: `GUI.med` (127-129), `GUI.setup` (131-153), `GUI.hide_path` (155-158), `GUI.draw` (160-193), `GUI.event` (264-270), `no` (63-64)
- misc.py
  - not modelled: `VideoAnimation._repr_html_` (7-12), `VideoAnimation.save` (14-21)
- observations/groups.py
  - modelled: `GroupEddiesObservations.fix_next_previous_obs` (272-273), `GroupEddiesObservations.get_missing_indices` (276-278), `GroupEddiesObservations.filled_by_interpolation` (280-303), `GroupEddiesObservations.insert_virtual` (305-328), `GroupEddiesObservations.keep_tracks_by_date` (330-351), `GroupEddiesObservations.particle_candidate_atlas` (353-423), `GroupEddiesObservations.fill_coherence` (426-458), `GroupEddiesObservations.merge_particle_result` (461-476), `get_missing_indices` (15-67), `advect` (70-90), `particle_candidate_step` (93-129), `particle_candidate` (132-180), `get_targets` (184-222), `get_matrix` (226-267)
- observations/network.py
  - modelled: `Buffer.load_contour` (66-82), `NetworkObservations.__repr__` (114-130), `NetworkObservations.reset_index` (132-135), `NetworkObservations.find_segments_relative` (137-160), `NetworkObservations.get_missing_indices` (162-172), `NetworkObservations.fix_next_previous_obs` (174-179), `NetworkObservations.index_network` (182-185), `NetworkObservations.index_segment_track` (188-191), `NetworkObservations.segment_size` (193-194), `NetworkObservations.ref_index` (201-202), `NetworkObservations.network_segment_size` (204-214), `NetworkObservations.network_size` (216-226), `NetworkObservations.unique_segment_to_id` (228-234), `NetworkObservations.network_slice` (245-253), `NetworkObservations.elements` (256-268), `NetworkObservations.longer_than` (278-285), `NetworkObservations.mask_longer_than` (287-304), `NetworkObservations.from_split_network` (307-332), `NetworkObservations.correct_close_events` (337-407), `NetworkObservations.sort` (409-427), `NetworkObservations.obs_relative_order` (429-431), `NetworkObservations.find_link` (433-526), `NetworkObservations.connexions` (528-563), `NetworkObservations.__close_segment` (566-578), `NetworkObservations.segment_relative_order` (580-594), `NetworkObservations.relatives` (596-656), `NetworkObservations.close_network` (661-683), `NetworkObservations.normalize_longitude` (685-710), `NetworkObservations.numbering_segment` (712-717), `NetworkObservations.numbering_network` (719-723), `NetworkObservations.only_one_network` (725-732), `NetworkObservations.position_filter` (734-740), `NetworkObservations.loess_filter` (742-749), `NetworkObservations.median_filter` (751-758), `NetworkObservations.display_timeline` (760-831), `NetworkObservations.event_timeline` (833-920), `NetworkObservations.mean_by_segment` (922-924), `NetworkObservations.map_segment` (926-944), `NetworkObservations.map_network` (946-990), `NetworkObservations.extract_event` (1105-1119), `NetworkObservations.segment_track_array` (1122-1126), `NetworkObservations.birth_event` (1128-1134), `NetworkObservations.death_event` (1138-1144), `NetworkObservations.merging_event` (1148-1185), `NetworkObservations.splitting_event` (1187-1223), `NetworkObservations.dissociate_network` (1225-1233), `NetworkObservations.network` (1238-1239), `NetworkObservations.networks_mask` (1241-1249), `NetworkObservations.networks` (1251-1256), `NetworkObservations.nb_network` (1259-1263), `NetworkObservations.nb_segment` (1266-1270), `NetworkObservations.identify_in` (1272-1353), `NetworkObservations.tag_segment` (1377-1399), `NetworkObservations.first_is_trash` (1407-1414), `NetworkObservations.remove_trash` (1416-1423), `NetworkObservations.plot` (1425-1453), `NetworkObservations.remove_dead_end` (1455-1497), `NetworkObservations.segment_mask` (1510-1517), `NetworkObservations.get_mask_with_period` (1519-1540), `NetworkObservations.extract_with_period` (1542-1553), `NetworkObservations.extract_light_with_mask` (1555-1603), `NetworkObservations.extract_with_mask` (1605-1637), `NetworkObservations.segment_coherence_backward` (1722-1796), `NetworkObservations.segment_coherence_forward` (1798-1872), `NetworkObservations.mask_obs_close_event` (1874-1894), `NetworkObservations.swap_track` (1896-1936), `Network.get_group_array` (1969-2003), `Network.group_translator` (2006-2023), `Network.group_observations` (2025-2070), `Network.build_dataset` (2072-2100), `fix_next_previous_obs` (86-103), `get_percentile_on_following_obs` (2104-2134), `get_percentile_around_event` (2138-2188), `get_next_index` (2192-2200), `apply_replace` (2204-2208), `build_unique_array` (2212-2224), `new_numbering` (2228-2236), `ptp` (2240-2241), `generate_mask_from_ids` (2245-2259), `same_position` (2263-2297), `mask_follow_obs` (2301-2318)
  - not modelled: `Singleton.__call__` (43-46), `Buffer.__init__` (60-64), `NetworkObservations.__init__` (110-112), `NetworkObservations.ref_segment_track_index` (197-198), `NetworkObservations.segment_slice` (236-243), `NetworkObservations.astype` (270-276), `NetworkObservations.infos` (334-335), `NetworkObservations.scatter_timeline` (992-1021), `NetworkObservations.event_map` (1023-1056), `NetworkObservations.scatter` (1058-1103), `NetworkObservations.network_segment` (1235-1236), `NetworkObservations.__tag_segment` (1356-1375), `NetworkObservations.fully_connected` (1401-1405), `NetworkObservations.extract_segment` (1499-1508), `NetworkObservations.analysis_coherence` (1639-1720), `Network.__init__` (1950-1960), `Network.from_eddiesobservations` (1963-1967)
- observations/observation.py
  - modelled: `Table.__init__` (142-143), `EddiesObservations.__init__` (220-241), `EddiesObservations.tracks` (244-245), `EddiesObservations.__eq__` (247-252), `EddiesObservations.get_color` (254-256), `EddiesObservations.sign_legend` (259-260), `EddiesObservations.shape` (263-264), `EddiesObservations.parse_varname` (282-283), `EddiesObservations.hist` (285-306), `EddiesObservations.fields` (314-315), `EddiesObservations.__getitem__` (391-398), `EddiesObservations.__getattr__` (400-407), `EddiesObservations.obs_dimension` (414-417), `EddiesObservations.remove_fields` (419-440), `EddiesObservations.add_fields` (442-461), `EddiesObservations.add_rotation_type` (463-466), `EddiesObservations.circle_contour` (468-491), `EddiesObservations.dtype` (494-507), `EddiesObservations.elements` (510-520), `EddiesObservations.coherence` (522-527), `EddiesObservations.concatenate` (530-545), `EddiesObservations.merge` (547-562), `EddiesObservations.obs` (568-570), `EddiesObservations.iter_on` (579-630), `EddiesObservations.align_on` (632-663), `EddiesObservations.insert_observations` (665-684), `EddiesObservations.append` (686-688), `EddiesObservations.__add__` (690-691), `EddiesObservations.distance` (693-696), `EddiesObservations.__copy__` (698-703), `EddiesObservations.copy` (705-706), `EddiesObservations.new_like` (709-717), `EddiesObservations.index` (719-731), `EddiesObservations.load_file` (748-783), `EddiesObservations.load_from_zarr` (786-886), `EddiesObservations.copy_data_to_zarr` (889-930), `EddiesObservations.load_from_netcdf` (933-1045), `EddiesObservations.build_var_list` (1048-1053), `EddiesObservations.compare_units` (1056-1080), `EddiesObservations.from_netcdf` (1110-1126), `EddiesObservations.propagate` (1128-1178), `EddiesObservations.intern` (1181-1188), `EddiesObservations.match` (1190-1234), `EddiesObservations.re_reference_index` (1237-1249), `EddiesObservations.cost_function_common_area` (1252-1286), `EddiesObservations.mask_function` (1288-1289), `EddiesObservations.cost_function` (1292-1318), `EddiesObservations.basic_formula_ellipse_major_axis` (1380-1398), `EddiesObservations.solve_simultaneous` (1405-1464), `EddiesObservations.solve_first` (1467-1514), `EddiesObservations.post_process_link` (1519-1522), `EddiesObservations.tracking` (1524-1546), `EddiesObservations.netcdf_create_dimensions` (1577-1585), `EddiesObservations.to_netcdf` (1587-1619), `EddiesObservations.create_variable` (1621-1666), `EddiesObservations.create_variable_zarr` (1695-1757), `EddiesObservations.write_file` (1759-1786), `EddiesObservations.global_attr` (1789-1797), `EddiesObservations.set_global_attr_zarr` (1799-1801), `EddiesObservations.set_global_attr_netcdf` (1803-1805), `EddiesObservations.mask_from_polygons` (1807-1825), `EddiesObservations.extract_with_area` (1827-1848), `EddiesObservations.time_datetime64` (1851-1853), `EddiesObservations.time_sub_sample` (1855-1863), `EddiesObservations.extract_with_mask` (1865-1883), `EddiesObservations.filled` (1908-1963), `EddiesObservations.__merge_filters__` (1965-2015), `EddiesObservations.merge_filters` (2017-2049), `EddiesObservations.bins_stat` (2051-2076), `EddiesObservations.first_obs` (2154-2162), `EddiesObservations.last_obs` (2164-2175), `EddiesObservations.contains` (2188-2204), `EddiesObservations.inside` (2206-2217), `EddiesObservations.grid_count` (2219-2274), `EddiesObservations.grid_box_stat` (2276-2322), `EddiesObservations.grid_stat` (2324-2359), `EddiesObservations.interp_grid` (2361-2406), `EddiesObservations.period` (2409-2421), `EddiesObservations.nb_days` (2424-2430), `VirtualEddiesObservations.elements` (2623-2626), `shifted_ellipsoid_degrees_mask2` (106-138), `grid_count_` (2450-2455), `grid_count_pixel_in` (2459-2508), `grid_box_stat` (2512-2560), `grid_stat` (2564-2614), `numba_where` (2630-2632), `sum_row_column` (2636-2648), `numba_digitize` (2652-2675), `iter_mode_reduce` (2679-2713)
  - not modelled: `Table._repr_html_` (145-160), `EddiesObservations.get_infos` (266-276), `EddiesObservations._repr_html_` (278-280), `EddiesObservations.box_display` (309-311), `EddiesObservations.field_table` (317-334), `EddiesObservations.__repr__` (336-371), `EddiesObservations.__dir__` (373-389), `EddiesObservations.needed_variable` (410-411), `EddiesObservations.reset` (564-565), `EddiesObservations.__len__` (572-573), `EddiesObservations.__iter__` (575-577), `EddiesObservations.zarr_dimension` (734-745), `EddiesObservations.from_array` (1083-1088), `EddiesObservations.from_zarr` (1091-1107), `EddiesObservations.shifted_ellipsoid_degrees_mask` (1320-1323), `EddiesObservations.fixed_ellipsoid_mask` (1325-1377), `EddiesObservations.solve_conflict` (1401-1402), `EddiesObservations.solve_function` (1516-1517), `EddiesObservations.to_zarr` (1548-1574), `EddiesObservations.get_filters_zarr` (1669-1693), `EddiesObservations.scatter` (1885-1906), `EddiesObservations.format_label` (2078-2084), `EddiesObservations.display_color` (2086-2116), `EddiesObservations.display` (2118-2152), `EddiesObservations.is_convex` (2177-2186), `EddiesObservations.create_particles` (2432-2443), `EddiesObservations.empty_dataset` (2445-2446), `_check_versions` (86-102)
- observations/tracking.py
  - modelled: `TrackEddiesObservations.__init__` (65-69), `TrackEddiesObservations.track_slice` (71-73), `TrackEddiesObservations.iter_track` (75-82), `TrackEddiesObservations.get_missing_indices` (84-95), `TrackEddiesObservations.fix_next_previous_obs` (97-102), `TrackEddiesObservations.nb_tracks` (105-114), `TrackEddiesObservations.__repr__` (116-146), `TrackEddiesObservations.add_distance` (148-154), `TrackEddiesObservations.distance_to_next` (156-171), `TrackEddiesObservations.normalize_longitude` (173-199), `TrackEddiesObservations.extract_longer_eddies` (201-217), `TrackEddiesObservations.elements` (220-223), `TrackEddiesObservations.set_global_attr_netcdf` (225-243), `TrackEddiesObservations.extract_with_period` (245-268), `TrackEddiesObservations.get_azimuth` (270-293), `TrackEddiesObservations.get_mask_from_id` (295-298), `TrackEddiesObservations.compute_index` (300-313), `TrackEddiesObservations.concatenate` (316-327), `TrackEddiesObservations.count_by_track` (329-340), `TrackEddiesObservations.index_from_track` (343-345), `TrackEddiesObservations.nb_obs_by_track` (348-350), `TrackEddiesObservations.lifetime` (353-355), `TrackEddiesObservations.age` (358-360), `TrackEddiesObservations.extract_ids` (362-364), `TrackEddiesObservations.extract_toward_direction` (366-385), `TrackEddiesObservations.extract_first_obs_in_box` (387-395), `TrackEddiesObservations.extract_in_direction` (397-412), `TrackEddiesObservations.extract_with_length` (414-436), `TrackEddiesObservations.loess_filter` (438-446), `TrackEddiesObservations.median_filter` (448-455), `TrackEddiesObservations.position_filter` (457-463), `TrackEddiesObservations.extract_with_mask` (465-514), `TrackEddiesObservations.shape_polygon` (516-526), `TrackEddiesObservations.close_tracks` (555-577), `TrackEddiesObservations.split_network` (607-656), `TrackEddiesObservations.set_tracks` (658-680), `TrackEddiesObservations.follow_obs` (683-705), `TrackEddiesObservations.get_previous_obs` (708-745), `TrackEddiesObservations.get_next_obs` (748-793), `compute_index` (797-803), `count_by_track` (807-810), `compute_mask_from_id` (814-816), `track_loess_filter` (820-861), `track_median_filter` (865-892)
  - not modelled: `TrackEddiesObservations.display_shape` (528-553), `TrackEddiesObservations.format_label` (579-586), `TrackEddiesObservations.plot` (588-605)
- poly.py
  - modelled: `is_left` (17-47), `poly_contain_poly` (51-70), `poly_area` (86-99), `convex` (120-142), `get_convex_hull` (146-194), `winding_number_poly` (198-229), `winding_number_grid_in_poly` (233-261), `close_center` (265-289), `create_meshed_particles` (293-310), `bbox_intersection` (314-350), `create_vertice` (354-368), `get_wrap_vertice` (391-407), `merge` (410-434), `vertice_overlap` (437-500), `polygon_overlap` (503-525), `fit_circle` (530-572), `fit_ellipse` (576-610), `fit_circle_` (614-669), `shape_error` (673-703), `get_pixel_in_regular` (707-744), `tri_area2` (748-763), `visvalingam` (767-856), `reduce_size` (860-878), `group_obs` (882-888), `box_index` (892-894), `box_indexes` (898-900), `poly_indexs` (904-959), `insidepoly` (963-972)
  - not modelled: `poly_area_vertice` (74-82), `convexs` (103-116), `create_vertice_from_2darray` (372-387)
- tracking.py
  - modelled: `Correspondances.__init__` (62-131), `Correspondances._copy` (133-148), `Correspondances.period` (156-168), `Correspondances.swap_dataset` (170-180), `Correspondances.merge_correspondance` (182-213), `Correspondances.store_correspondance` (215-278), `Correspondances.append` (280-282), `Correspondances.id_generator` (284-288), `Correspondances.recense_dead_id_to_extend` (290-333), `Correspondances.load_state` (335-363), `Correspondances.track` (365-403), `Correspondances.to_netcdf` (405-489), `Correspondances.save` (491-496), `Correspondances.load_compatible` (498-513), `Correspondances.from_netcdf` (516-558), `Correspondances.load` (561-565), `Correspondances.prepare_merging` (567-587), `Correspondances.longer_than` (589-610), `Correspondances.shorter_than` (612-630), `Correspondances.merge` (632-722), `Correspondances.get_unused_data` (724-755), `index` (39-46)
  - not modelled: `Correspondances.reset_dataset_cache` (150-153)
