{"id": "C01", "title": "Association between two dates is one-to-one, allowed and maximal", "statement": "When the default tracker associates the eddies of two consecutive dates, each eddy of either date takes part in at most one returned link, every returned link joins a pair whose cost is not masked, and no allowed pair remains with both ends free.", "quantifier": "every cost matrix of any shape, with any set of masked cells, any costs and any ties", "why_tests_cant": "the solver iterates over data-dependent conflicts; a test only sees a few matrices", "anchors": ["src/py_eddy_tracker/observations/observation.py: EddiesObservations.solve_simultaneous"]}
{"id": "C02", "title": "Links are taken greedily by cost and the solver terminates", "statement": "Every allowed pair that is not returned is beaten: one of its two eddies is linked by a returned pair whose cost is at most the cost of the pair. The iteration always ends without reaching its iteration cap.", "quantifier": "every cost matrix, including equal costs", "why_tests_cant": "stability is a statement about all pairs of all matrices", "anchors": ["src/py_eddy_tracker/observations/observation.py: EddiesObservations.solve_simultaneous"]}
{"id": "C03", "title": "A track number never designates two eddies of one date", "statement": "During a whole tracking run, for any sequence of one-to-one links, the track numbers stored for one time step are pairwise distinct, a link starting from an observation reached by the previous step keeps that observation's number, and a number handed to a new track was never used before in the run.", "quantifier": "every number of dates and every history of links, with or without virtual observations, any virtual memory length", "why_tests_cant": "it is an invariant of the whole history of the run", "anchors": ["src/py_eddy_tracker/tracking.py: Correspondances.store_correspondance", "src/py_eddy_tracker/tracking.py: Correspondances.id_generator", "src/py_eddy_tracker/tracking.py: Correspondances.recense_dead_id_to_extend", "src/py_eddy_tracker/tracking.py: Correspondances.track"]}
{"id": "C04", "title": "A lost track is remembered at most the requested number of steps", "statement": "A track that loses its eddy is extrapolated during at most nb_virtual consecutive dates; a track found again after k missing dates records a virtual length of exactly k, with 1 <= k <= nb_virtual; a track missing longer never gets another observation. This holds up to nb_virtual = 127; from 128 on the size counter, a signed byte, wraps around and lost tracks are never forgotten.", "quantifier": "every history of links and every nb_virtual up to 127, with a counterexample at 128", "why_tests_cant": "depends on the interleaving of losses and recoveries over the run", "anchors": ["src/py_eddy_tracker/tracking.py: Correspondances.recense_dead_id_to_extend", "src/py_eddy_tracker/observations/observation.py: EddiesObservations.propagate", "src/py_eddy_tracker/tracking.py: Correspondances.store_correspondance"]}
{"id": "C05", "title": "The length of a track equals its time span", "statement": "After a tracking run the number of observations reserved for a track equals the number of dates between its first and its last eddy, both included, and in the merged output the eddy seen at date t sits exactly t - t_first positions after the first one.", "quantifier": "every run history, with or without virtual observations, nb_virtual up to 127", "why_tests_cant": "global counting property over the whole run", "anchors": ["src/py_eddy_tracker/tracking.py: Correspondances.prepare_merging", "src/py_eddy_tracker/tracking.py: Correspondances.merge"]}
{"id": "C06", "title": "Merging writes each slot of the output at most once and only inside its track", "statement": "When correspondences are merged into trajectories, two different observations are never written in the same row, each track occupies one contiguous block, blocks are in track order without gap, and rows not written are exactly the virtual ones.", "quantifier": "every run history, nb_virtual up to 127", "why_tests_cant": "index arithmetic over an unbounded number of steps", "anchors": ["src/py_eddy_tracker/tracking.py: Correspondances.merge", "src/py_eddy_tracker/tracking.py: Correspondances.prepare_merging"]}
{"id": "C07", "title": "Every observation is either in a track or unused, never both", "statement": "The observations returned as untracked for a date are exactly those that no link of the run starts from or arrives at, in increasing order, so tracked and untracked observations partition each date.", "quantifier": "every run history and every number of observations per date", "why_tests_cant": "complement over all dates and all observations", "anchors": ["src/py_eddy_tracker/tracking.py: Correspondances.get_unused_data", "src/py_eddy_tracker/generic.py: reverse_index"]}
{"id": "C08", "title": "Short and long selections partition the tracks", "statement": "Selecting the tracks of at least n observations and those of fewer than n observations splits the tracks in two complementary families; kept tracks are renumbered 0,1,2,... in their original order and keep exactly their links, so recounting and merging the selection gives their blocks unchanged. When no track is long enough the first selection silently keeps everything, and when none is short enough the second one raises.", "quantifier": "every set of correspondences and every threshold", "why_tests_cant": "must hold for every length distribution including empty families", "anchors": ["src/py_eddy_tracker/tracking.py: Correspondances.longer_than", "src/py_eddy_tracker/tracking.py: Correspondances.shorter_than"]}
{"id": "C09", "title": "Resuming a saved run gives the same result as an uninterrupted run", "statement": "Stopping a tracking run after any date, saving its state, reloading it and continuing with the remaining dates gives the same correspondences, track numbers and virtual observations as a run over all the dates at once, provided no step is empty and at least three links exist when virtual observations are used; with virtual observations a run stopped after two links cannot be saved and one stopped after a single link cannot be resumed.", "quantifier": "every stop point, every link decision function and every number of remaining dates", "why_tests_cant": "crash/stop point quantification", "anchors": ["src/py_eddy_tracker/tracking.py: Correspondances.load_state", "src/py_eddy_tracker/tracking.py: Correspondances.to_netcdf", "src/py_eddy_tracker/tracking.py: Correspondances.from_netcdf", "src/py_eddy_tracker/tracking.py: Correspondances.track"]}
{"id": "C10", "title": "Two overlapping runs can be joined only under stated conditions", "statement": "Joining a later run to an earlier one renumbers the tracks of the later run so that tracks alive at the junction keep their number and new tracks get fresh distinct numbers, when every number of the later run below the junction maximum is alive at the junction and the last number of the later run was created after the junction.", "quantifier": "every pair of runs overlapping on one date", "why_tests_cant": "depends on both histories", "anchors": ["src/py_eddy_tracker/tracking.py: Correspondances.merge_correspondance"]}
{"id": "C11", "title": "Reference tracker: conflicts keep the eddy of greatest amplitude", "statement": "With the Chelton-like tracker, links competing for the same eddy are reduced to one, the one whose origin has the greatest amplitude; other links are unchanged, so the result is one-to-one on the arrival side.", "quantifier": "every list of candidate links and amplitudes", "why_tests_cant": "conflict groups have arbitrary size and order", "anchors": ["src/py_eddy_tracker/featured_tracking/old_tracker_reference.py: CheltonTracker.post_process_link", "src/py_eddy_tracker/featured_tracking/old_tracker_reference.py: CheltonTracker.solve_function"]}
{"id": "C12", "title": "Index tables of a sorted label array tile it exactly", "statement": "For a non decreasing label array, the start/stop table gives for each label between the smallest and the largest the exact range of positions carrying it, empty for absent labels, and ranges are adjacent and cover the whole array.", "quantifier": "every non empty non decreasing integer array", "why_tests_cant": "all arrays, with any gaps between labels", "anchors": ["src/py_eddy_tracker/generic.py: build_index"]}
{"id": "C13", "title": "Complement of an index list", "statement": "The complement index list contains each position of the range not listed, once, in increasing order, whatever the order and repetitions of the list.", "quantifier": "every size and every index list inside the range", "why_tests_cant": "set equality over all lists", "anchors": ["src/py_eddy_tracker/generic.py: reverse_index"]}
{"id": "C14", "title": "Cumulative distance restarts at each track", "statement": "The cumulative field at a position equals the sum of the field over the positions of the same uninterrupted run of track numbers up to it, whatever the first track number is.", "quantifier": "every field and every track array", "why_tests_cant": "all lengths, all numberings including track 0 first", "anchors": ["src/py_eddy_tracker/generic.py: cumsum_by_track"]}
{"id": "C15", "title": "Time windows select exactly the expected observations", "statement": "The window table gives for each centre (in increasing order) exactly the sorted observations with centre - half < x <= centre + half.", "quantifier": "every data array, every increasing list of centres and every positive half window", "why_tests_cant": "two moving cursors over unbounded arrays", "anchors": ["src/py_eddy_tracker/generic.py: window_index"]}
{"id": "C16", "title": "Longitude wrapping is a canonical representative", "statement": "Wrapping longitudes with a reference gives values in [ref, ref+360), equal to the input modulo 360, and wrapping twice is the same as wrapping once; wrapped values do not depend on the turn the input was expressed in.", "quantifier": "every longitude and every reference", "why_tests_cant": "all rationals", "anchors": ["src/py_eddy_tracker/generic.py: wrap_longitude", "src/py_eddy_tracker/observations/tracking.py: TrackEddiesObservations.normalize_longitude"]}
{"id": "C17", "title": "Line splitting keeps every point and separates every group", "statement": "Splitting a line on a label inserts exactly one gap at each label change, nowhere else, and removing the gaps gives back the input points in order.", "quantifier": "every line and label array", "why_tests_cant": "all arrays", "anchors": ["src/py_eddy_tracker/generic.py: split_line"]}
{"id": "C18", "title": "Flattening a matrix of lines stays inside its buffer", "statement": "Flattening n lines of m points separated by gaps fills exactly n*m + n - 1 cells in order. The code also writes one cell past the end.", "quantifier": "every matrix", "why_tests_cant": "memory safety for all shapes", "anchors": ["src/py_eddy_tracker/generic.py: flatten_line_matrix"]}
{"id": "C19", "title": "Run lengths of a boolean mask", "statement": "The value at a position is the length of the uninterrupted run of true values ending there, and 0 on false positions.", "quantifier": "every boolean array", "why_tests_cant": "all lengths", "anchors": ["src/py_eddy_tracker/generic.py: count_consecutive"]}
{"id": "C20", "title": "Bilinear interpolation of a point does not depend on the other points", "statement": "The value at a point is a function of this point, the grid and the mask, although corners are kept from one point to the next; it is missing exactly when its cell is out of the grid or has a masked corner, is between the smallest and the largest value of the grid, reproduces a + b x + c y + d x y exactly, and does not change with turns of longitude on a circular grid. The nearest interpolation gives the value of a node at most half a step away on each axis.", "quantifier": "every list of points, grid and mask", "why_tests_cant": "depends on the order of an arbitrary list of points", "anchors": ["src/py_eddy_tracker/generic.py: interp2d_bilinear"]}
{"id": "C21", "title": "Track index tables give exactly the observations of a track", "statement": "For a dataset stored track after track, first position and count of each track delimit exactly its observations, absent tracks have count 0, and selecting a set of tracks selects exactly their observations.", "quantifier": "every sorted track array and every list of present tracks", "why_tests_cant": "all datasets", "anchors": ["src/py_eddy_tracker/observations/tracking.py: compute_index", "src/py_eddy_tracker/observations/tracking.py: compute_mask_from_id", "src/py_eddy_tracker/observations/tracking.py: TrackEddiesObservations.get_mask_from_id"]}
{"id": "C22", "title": "Extraction options select whole tracks", "statement": "Extraction with full_path returns exactly the observations of tracks having at least one selected observation, with remove_incomplete exactly those of fully selected tracks; observations keep their order and values.", "quantifier": "every dataset sorted by track and every mask", "why_tests_cant": "all masks", "anchors": ["src/py_eddy_tracker/observations/tracking.py: TrackEddiesObservations.extract_with_mask"]}
{"id": "C23", "title": "Compressed track numbers are a renumbering", "statement": "With compress_id the attribute track of the extracted dataset is renumbered 1..k: two observations have the same new number iff they had the same number, and the order of tracks is kept. But the field track of the observations (items of the dataset, files) keeps the old numbers. extract_longer_eddies without compress_id gives exactly the observations of the tracks of at least nb_min observations; with compress_id, its default, it is always an error.", "quantifier": "every extracted dataset", "why_tests_cant": "all numberings", "anchors": ["src/py_eddy_tracker/observations/tracking.py: TrackEddiesObservations.extract_with_mask", "src/py_eddy_tracker/observations/tracking.py: TrackEddiesObservations.extract_longer_eddies"]}
{"id": "C24", "title": "Concatenation never merges tracks of different datasets", "statement": "After concatenation of non empty datasets two observations share a track number iff they come from the same dataset and shared it there, and rows are kept in order.", "quantifier": "every list of non empty datasets", "why_tests_cant": "any number of datasets", "anchors": ["src/py_eddy_tracker/observations/tracking.py: TrackEddiesObservations.concatenate", "src/py_eddy_tracker/observations/observation.py: EddiesObservations.concatenate"]}
{"id": "C25", "title": "Selection by track length keeps exactly the tracks in the bounds", "statement": "Selecting on length bounds keeps an observation iff the number of observations of its track is in the bounds, a bound equal to -1 being ignored; the two halves given by a threshold partition the dataset.", "quantifier": "every dataset sorted by track and all bounds", "why_tests_cant": "all length distributions", "anchors": ["src/py_eddy_tracker/observations/tracking.py: TrackEddiesObservations.extract_with_length"]}
{"id": "C26", "title": "Distance to the next observation never crosses tracks", "statement": "The distance is 0 at the last observation of each track and the distance to the following observation elsewhere, when track numbers start at 0 and have no gap. Otherwise one step is also lost: the one before the last row when the numbers do not start at 0, the one before that when a number from 1 on is not used.", "quantifier": "every dataset sorted by track", "why_tests_cant": "all numberings; wrong when numbers are missing", "anchors": ["src/py_eddy_tracker/observations/tracking.py: TrackEddiesObservations.distance_to_next", "src/py_eddy_tracker/observations/tracking.py: TrackEddiesObservations.add_distance"]}
{"id": "C27", "title": "Median filter uses exactly the window of the same track", "statement": "The filtered value at an observation is the median of the values of the observations of the same track whose abscissa is within the half window.", "quantifier": "every dataset with tracks stored one after the other and non decreasing abscissa per track", "why_tests_cant": "two cursors moving over all tracks", "anchors": ["src/py_eddy_tracker/observations/tracking.py: track_median_filter"]}
{"id": "C28", "title": "Loess filter averages only observations of the same track", "statement": "The filtered value is a weighted mean with weights in [0,1] of values of the same track inside the half window, hence between their minimum and maximum; the very first and very last rows of the dataset are never used for other rows.", "quantifier": "every dataset with growing abscissa per track", "why_tests_cant": "all tracks layouts", "anchors": ["src/py_eddy_tracker/observations/tracking.py: track_loess_filter"]}
{"id": "C29", "title": "Network splitting gives chains ordered in time", "statement": "Splitting groups in segments gives every observation of a group a segment number from 1 up, in the order of the first rows. The next of an observation is the one of best cost on the nearest later date within the window that has a candidate. The previous of an observation which is the next of some is, among those, the one of best cost; of an observation which is the next of none it is the best one on the nearest earlier date. Two observations are consecutive in a segment exactly when each is linked to the other, so a segment has at most one observation per date. Rows of group 0 keep segment 0 and no link. The returned dates are whole numbers of time steps: they are not the dates given when these are not multiples of the step, which is the median difference of successive dates.", "quantifier": "every sorted set of groups, every overlap function, every window and every rounding", "why_tests_cant": "depends on the order of exploration and relabelling", "anchors": ["src/py_eddy_tracker/observations/tracking.py: TrackEddiesObservations.set_tracks", "src/py_eddy_tracker/observations/tracking.py: TrackEddiesObservations.follow_obs", "src/py_eddy_tracker/observations/tracking.py: TrackEddiesObservations.get_previous_obs", "src/py_eddy_tracker/observations/tracking.py: TrackEddiesObservations.get_next_obs"]}
{"id": "C30", "title": "Iterating on a field visits each observation once", "statement": "Iterating on a field with bins, sorted with all its values inside the bins or signed and not sorted with some value inside, visits every observation whose value is inside the bins exactly once, in the group of its bin, and no other; with the default bins every observation is visited once. Outside these cases: a sorted field with values outside gives a meaningless group or raises, an unsigned field not sorted is cut wrongly, a field not sorted with no value inside raises.", "quantifier": "every field and every increasing bins", "why_tests_cant": "all arrays and bins", "anchors": ["src/py_eddy_tracker/observations/observation.py: EddiesObservations.iter_on", "src/py_eddy_tracker/observations/observation.py: numba_digitize", "src/py_eddy_tracker/generic.py: build_index"]}
{"id": "C31", "title": "Aligned iteration pairs only identical bins", "statement": "Iterating on two datasets at once with common bins yields exactly the bins where both have observations, with the observations of each in that bin; with all_ref it yields also the bins of the first dataset that precede the last one of the second, with no observation of the second. With all_ref later bins are dropped and a sorted first dataset raises.", "quantifier": "every pair of datasets", "why_tests_cant": "two independent iterators", "anchors": ["src/py_eddy_tracker/observations/observation.py: EddiesObservations.align_on"]}
{"id": "C32", "title": "Filters combined in a selection are intersected", "statement": "Combining any number of filters (absent, slice, mask, index list) selects exactly the observations selected by all of them, provided the last two non trivial ones are not both slices and indices count from the start; two slices select the union.", "quantifier": "every list of filters on every dataset size", "why_tests_cant": "all combinations of filter kinds", "anchors": ["src/py_eddy_tracker/observations/observation.py: EddiesObservations.__merge_filters__", "src/py_eddy_tracker/observations/observation.py: EddiesObservations.merge_filters"]}
{"id": "C33", "title": "Insertion of observations keeps the others in order", "statement": "Inserting observations at an index of the dataset (counted from the start or from the end) keeps all previous rows in their order around the inserted block; an index outside can lose the inserted row and duplicate another.", "quantifier": "every dataset and every index", "why_tests_cant": "all sizes", "anchors": ["src/py_eddy_tracker/observations/observation.py: EddiesObservations.insert_observations"]}
{"id": "C34", "title": "Statistic boxes receive their own observations", "statement": "Each observation falls in the cell it lies in (modulo the width on a circular grid) or raises an error. The box statistic should store in a cell the statistic of the observations of that cell. The code stores in each occupied cell but the lowest the statistic of the occupied cell just before it, and never stores the statistic of the highest one; on a circular grid latitudes outside the grid are not refused.", "quantifier": "every dataset, every statistic", "why_tests_cant": "sorted group processing", "anchors": ["src/py_eddy_tracker/observations/observation.py: grid_box_stat"]}
{"id": "C35", "title": "Digitisation agrees with half open bins", "statement": "The bin number given to a value is the number of bin edges not greater than the value, for increasing edges.", "quantifier": "every value list and every increasing edge list", "why_tests_cant": "all edges", "anchors": ["src/py_eddy_tracker/observations/observation.py: numba_digitize"]}
{"id": "C36", "title": "Groups are the connected components of the interactions", "statement": "After grouping, two observations have the same non zero group iff a chain of interactions joins them, and an observation without interaction has group 0. The numbers of the groups do not depend on the order in which the couples of groups to join were met.", "quantifier": "every number of dates, every list of interaction pairs in any order with repetitions", "why_tests_cant": "needs connectivity in unbounded graphs", "anchors": ["src/py_eddy_tracker/observations/network.py: Network.get_group_array", "src/py_eddy_tracker/observations/network.py: Network.group_translator", "src/py_eddy_tracker/observations/network.py: apply_replace"]}
{"id": "C37", "title": "Sorting a network preserves its links", "statement": "Sorting is a permutation of the rows that puts them in the order of the sort keys and renames the next and previous indices so that each row still points to the same row; absent links stay absent, and the table returned translates any other index. Building a network from the result of split_network renames its links in the same way. The sort is not stable: rows equal on the keys are put in the order of their other fields.", "quantifier": "every network with valid links, every list of keys among network, segment and time; every result of split_network", "why_tests_cant": "all permutations", "anchors": ["src/py_eddy_tracker/observations/network.py: NetworkObservations.sort", "src/py_eddy_tracker/observations/network.py: NetworkObservations.from_split_network"]}
{"id": "C38", "title": "Extraction from a network never leaves a dangling link", "statement": "After extraction with any mask or slice every link of a kept row points to the row holding the same target when it is kept and is absent otherwise; no link points outside the dataset.", "quantifier": "every network and every mask", "why_tests_cant": "all masks", "anchors": ["src/py_eddy_tracker/observations/network.py: NetworkObservations.extract_with_mask", "src/py_eddy_tracker/observations/network.py: NetworkObservations.extract_light_with_mask"]}
{"id": "C39", "title": "Following water forward selects exactly the reachable observations", "statement": "Searching links forward from observations selects exactly the observations reachable by following segments in time and links at their ends, and backward exactly those that lead to one of them; searching both directions selects their union from one observation when time grows along links, but from several observations may miss some.", "quantifier": "every network sorted by segment with valid links and every set of starting observations", "why_tests_cant": "graph reachability", "anchors": ["src/py_eddy_tracker/observations/network.py: NetworkObservations.find_link"]}
{"id": "C40", "title": "Relatives are the segments at bounded distance", "statement": "Extracting relatives at order k < 65535 selects exactly the segments joined to a starting segment by at most k merging or splitting connections (at 65535 it selects everything); the relative order of a segment is the least such k, -1 when there is none.", "quantifier": "every network sorted by segment with valid links, every starting set, every k and every iteration order of sets", "why_tests_cant": "shortest paths in arbitrary graphs", "anchors": ["src/py_eddy_tracker/observations/network.py: NetworkObservations.relatives", "src/py_eddy_tracker/observations/network.py: NetworkObservations.segment_relative_order"]}
{"id": "C41", "title": "Dissociation gives one network per connected component", "statement": "After dissociation two observations are in the same network iff a chain of merging and splitting connections joins their segments; networks are numbered without gap from 0 or 1, rows are sorted, keep their other columns and their links; when connections stay inside networks no two segments become one.", "quantifier": "every network sorted by segment with valid links and every iteration order of sets", "why_tests_cant": "graph connectivity", "anchors": ["src/py_eddy_tracker/observations/network.py: NetworkObservations.tag_segment", "src/py_eddy_tracker/observations/network.py: NetworkObservations.dissociate_network", "src/py_eddy_tracker/observations/network.py: NetworkObservations.connexions"]}
{"id": "C42", "title": "Removing dead ends keeps no link to a removed observation", "statement": "Each pass of the removal of dead ends removes exactly the segments that are short, have fewer than two neighbour segments and hold no observation of the protection mask; their observations are moved to network 0 without any link, the others keep their columns and their links to observations not removed, and no link leads to a removed one. The mask only protects in the first pass: with recursion a protected segment can be removed.", "quantifier": "every network sorted by segment with valid links, every threshold, mask and number of passes", "why_tests_cant": "all networks", "anchors": ["src/py_eddy_tracker/observations/network.py: NetworkObservations.remove_dead_end", "src/py_eddy_tracker/observations/network.py: NetworkObservations.segment_mask"]}
{"id": "C43", "title": "Unique segment identifiers identify (network, segment) pairs", "statement": "For rows sorted by network then segment the unique identifier of two rows is equal iff both identifiers are equal, identifiers start at 0, are non decreasing and have no gap; renumbering has the same property.", "quantifier": "every sorted pair of arrays", "why_tests_cant": "all arrays", "anchors": ["src/py_eddy_tracker/observations/network.py: build_unique_array", "src/py_eddy_tracker/observations/network.py: new_numbering"]}
{"id": "C44", "title": "Grouping rows by group is a stable permutation", "statement": "The new position computed for each row is a permutation that sorts rows by group and keeps their order inside a group.", "quantifier": "every group array", "why_tests_cant": "all arrays", "anchors": ["src/py_eddy_tracker/observations/network.py: get_next_index", "src/py_eddy_tracker/observations/network.py: Network.build_dataset"]}
{"id": "C45", "title": "Events around a merge or split select a bounded time neighbourhood", "statement": "Following the links from given observations marks, besides the marks already there, exactly these observations and those met along the links as long as the time distance to the start is below the limit. The mask of the observations close to events is the union, for every merging, of the path back on the main segment, of the path back on the segment that stops and of the path forward, and for every splitting of the path forward on the main segment, of the path forward on the segment that starts and of the path back. When an event has no row before or after it on the main segment, the last row of the dataset is marked instead.", "quantifier": "every network sorted by segment whose links have no cycle, every limit, every choice of events, every order of numpy's argsort on ties", "why_tests_cant": "path following", "anchors": ["src/py_eddy_tracker/observations/network.py: mask_follow_obs", "src/py_eddy_tracker/observations/network.py: NetworkObservations.mask_obs_close_event"]}
{"id": "C46", "title": "Comparison of two atlases returns equal items, each once", "statement": "Comparing items (networks or segments) of the same size of two atlases gives for each item of the first either an item of the second with the same positions up to order, each item of the second being given at most once, or absent, and absent only if every item of the second with the same positions is given to an earlier item. Items of different sizes are equal for the comparison when the shortest agrees.", "quantifier": "every pair of lists of items of equal size, every order of numpy's argsort on ties", "why_tests_cant": "all datasets", "anchors": ["src/py_eddy_tracker/observations/network.py: same_position", "src/py_eddy_tracker/observations/network.py: NetworkObservations.identify_in"]}
{"id": "C47", "title": "The contour cache is transparent", "statement": "Loading the contours of a file through the bounded cache always returns the contours of that file, for any sequence of requests including failing ones, and the cache never holds more than buffersize + 1 files, each once and with its own contours; a file held is not read again and only the oldest file is dropped. Parameters given to a second object are ignored, even the kind of contour; a negative size makes requests fail.", "quantifier": "every request history, every set of files that can not be read, every size not negative", "why_tests_cant": "history dependent", "anchors": ["src/py_eddy_tracker/observations/network.py: Buffer.load_contour", "src/py_eddy_tracker/observations/network.py: Singleton"]}
{"id": "C48", "title": "Virtual rows inserted in a dataset keep the original rows", "statement": "Inserting missing observations keeps every original row in order with its values, puts in each gap between two consecutive rows of a track the number of missing time steps (the step being the median difference of dates), flags exactly the inserted rows and spaces linearly their dates and other values. The code gives the inserted rows the track number 0, drops the flags of rows which were already virtual, ignores segments in a network, and there only the links around the gaps are renumbered: the other links keep the old row numbers.", "quantifier": "every dataset, every number and length of gaps, with a positive usual step", "why_tests_cant": "any number and length of gaps", "anchors": ["src/py_eddy_tracker/observations/groups.py: get_missing_indices", "src/py_eddy_tracker/observations/groups.py: GroupEddiesObservations.insert_virtual", "src/py_eddy_tracker/observations/groups.py: GroupEddiesObservations.filled_by_interpolation", "src/py_eddy_tracker/observations/network.py: fix_next_previous_obs"]}
{"id": "C49", "title": "Particle targets are the two best", "statement": "For each start eddy the first target is the first of those receiving the largest number of particles and the second target the first of the largest among the others; percentages are in (0,100], sum to at most 100, and absent targets are -1 with 0; integer parts are kept at the end. When the targets are written directly in the network, percentages are compared with integer parts already stored, so the first target is only the one of largest integer percentage. Merging the results of a date writes the rows of that date only, with targets renamed in the full dataset.", "quantifier": "every particle list", "why_tests_cant": "all counts", "anchors": ["src/py_eddy_tracker/observations/groups.py: get_targets", "src/py_eddy_tracker/observations/groups.py: get_matrix", "src/py_eddy_tracker/observations/groups.py: GroupEddiesObservations.merge_particle_result"]}
{"id": "C50", "title": "Period selection", "statement": "Selecting a period with positive bounds keeps exactly the observations within the bounds, a zero bound being ignored and a negative bound being counted from the corresponding end of the dataset.", "quantifier": "every dataset and period", "why_tests_cant": "all times", "anchors": ["src/py_eddy_tracker/observations/tracking.py: TrackEddiesObservations.extract_with_period", "src/py_eddy_tracker/observations/network.py: NetworkObservations.get_mask_with_period"]}
{"id": "C51", "title": "A point outside the bounding box of a contour is outside the contour", "statement": "The winding number of a contour is 0 for each point outside its bounding box, so bounding box prefilters never drop an inside point.", "quantifier": "every closed contour with any number of vertices (crossing itself or not) and every point", "why_tests_cant": "all polygons", "anchors": ["src/py_eddy_tracker/poly.py: winding_number_poly", "src/py_eddy_tracker/poly.py: is_left"]}
{"id": "C52", "title": "The winding number does not depend on the start vertex or repeated closing vertices", "statement": "Rotating the vertex list, appending copies of the first vertex, or moving the contour and the point together does not change the winding number; so reducing a contour by dropping its trailing copies of the first vertex (exactly these, at least three points being kept) changes no containment answer. A contour whose points are all equal cannot be reduced: the code leaves the array.", "quantifier": "every contour and point", "why_tests_cant": "all polygons", "anchors": ["src/py_eddy_tracker/poly.py: winding_number_poly", "src/py_eddy_tracker/poly.py: reduce_size"]}
{"id": "C53", "title": "Contour area is invariant", "statement": "The area of a contour whose last point is its first one is non negative, is half the absolute value of the shoelace sum, and does not change with trailing copies of the first point, translation, rotation of the vertex list or reversal; the signed sum is the sum of the signed areas of the triangles seen from any point. Without the closing point the value is wrong.", "quantifier": "every closed contour", "why_tests_cant": "all polygons", "anchors": ["src/py_eddy_tracker/poly.py: poly_area"]}
{"id": "C54", "title": "Contour simplification to a fixed size", "statement": "The reduced contour has exactly the requested size; it is a subsequence of the input vertices, in order, followed by copies of its first vertex, with min(n, size-1) positions kept; each removal takes a vertex of smallest current triangle area in the contour left, so no stale triangle is used; the loop always ends and never empties its heap.", "quantifier": "every contour of at least two vertices and every size >= 3 (with a size of one the result is undefined)", "why_tests_cant": "heap driven loop", "anchors": ["src/py_eddy_tracker/poly.py: visvalingam"]}
{"id": "C55", "title": "Particle to contour assignment", "statement": "Each particle receives the first contour containing it, modulo whole turns of longitude, and -1 when none does, although only particles of the one-degree boxes of the contour are tested, for contours narrower than 180 degrees; the mask of particles inside a contour follows. Wider contours lose particles, and an empty list of particles is an error.", "quantifier": "every particle list, every list of contours with two different points, latitudes from -90 on", "why_tests_cant": "prefilter completeness", "anchors": ["src/py_eddy_tracker/poly.py: poly_indexs", "src/py_eddy_tracker/poly.py: box_index", "src/py_eddy_tracker/poly.py: box_indexes", "src/py_eddy_tracker/poly.py: group_obs"]}
{"id": "C56", "title": "Bounding box prefilter of contour pairs", "statement": "The prefilter returns, in lexicographic order and once, exactly the pairs of contours whose longitude/latitude boxes meet whatever the turn of longitude used, when the two widths sum to less than 180 degrees; so two contours with a common inside point are always compared, and before the comparison the second contour is moved as a whole by whole turns next to the first. With larger widths a pair can be missed.", "quantifier": "every pair of contour lists", "why_tests_cant": "completeness over all positions", "anchors": ["src/py_eddy_tracker/poly.py: bbox_intersection"]}
{"id": "C57", "title": "Overlap score", "statement": "For any areas with 0 <= intersection <= min(areas) the score is in [0,1], is 0 or the ratio of the mode when this ratio reaches the threshold or the hybrid rule keeps it, is symmetric except in p1 mode, is never below the union score nor above the minimal area score, and the union score is 1 exactly for equal contours.", "quantifier": "all areas and options", "why_tests_cant": "all values", "anchors": ["src/py_eddy_tracker/poly.py: vertice_overlap"]}
{"id": "C58", "title": "Advection of a particle does not depend on the other particles", "statement": "With each of the four schemes (first order or Runge-Kutta, one date or two), the new position of a particle is a function of this particle and of the fields only, although the last cell is kept between particles; masked particles are left as they are, lost ones become nan and masked and stay so, and two releases compose into one. Velocities are those of the nodes at nodes, turns of longitude on a circular grid change nothing, the move in n steps is between n times the smallest and n times the largest value (so exact in a uniform current), a particle which cannot leave the rows of an unmasked circular grid is not lost, and two equal dates give the result of one. A particle south of the grid is not lost but moved with the northern rows, and one cell far out of the grid is treated differently for the first particle.", "quantifier": "every particle list, grid, mask, pair of fields, list of weights and number of steps", "why_tests_cant": "order of particles", "anchors": ["src/py_eddy_tracker/dataset/grid.py: advect", "src/py_eddy_tracker/dataset/grid.py: advect_rk4", "src/py_eddy_tracker/dataset/grid.py: get_uv_quad", "src/py_eddy_tracker/dataset/grid.py: interp_uv", "src/py_eddy_tracker/dataset/grid.py: get_grid_indices"]}
{"id": "C59", "title": "Finite difference stencils are exact on polynomials", "statement": "With r the largest half width, at most the one asked, up to which no neighbour is masked, the derivative at a cell is the centred difference of half width r over its true neighbours, across the seam of a circular grid too, hence exact on every polynomial of degree at most 2r; with one masked side it is the difference with the other side. A result is masked exactly where the value is. Near the ends of a line which does not wrap, values left by the line before are used, and with both sides masked the masked values are used.", "quantifier": "every grid with lines of at least four cells, every mask, polynomial, position and step", "why_tests_cant": "all polynomials", "anchors": ["src/py_eddy_tracker/dataset/grid.py: compute_stencil", "src/py_eddy_tracker/dataset/grid.py: RegularGridDataset.compute_stencil"]}
{"id": "C60", "title": "Pixel paths are connected and reach both ends", "statement": "The pixels of a path on a grid start at the pixel nearest to the first position, end at the one nearest to the last, two successive pixels touch each other, across the periodic border too, the path stays less than one pixel away from the straight line and no connected path is shorter. Paths of several segments are returned one after the other with their number of moves; a link is dropped by the ground test exactly when a pixel of its path is ground.", "quantifier": "every list of segments, every grid size", "why_tests_cant": "all segments", "anchors": ["src/py_eddy_tracker/dataset/grid.py: compute_pixel_path"]}
{"id": "C61", "title": "Detected eddies never share a pixel", "statement": "In one identification no grid cell is inside the effective contours of two eddies, of the same sense or not, and no cell of an eddy is masked. Each eddy meets the criteria of shape, side, number of pixels and amplitude computed with the cells of the eddies found before it masked. A contour is the effective contour of at most one eddy and never after being in the profile of an eddy found before. The profile of an eddy is its effective contour followed by one contour per level towards the centre, as far as one is found, and its speed contour is the innermost of those with the largest mean speed among the effective contour and those with more pixels than the minimum. Every contour of the list is the effective contour of an eddy or was refused for a stated reason. The levels are consecutive multiples of the step which enclose all heights.", "quantifier": "every field and mask, every list of contours per level, every shape error, pixel set, speed, nearest contour search and inclusion test, every parameter of the identification", "why_tests_cant": "depends on the whole sequence of accepted contours", "anchors": ["src/py_eddy_tracker/dataset/grid.py: GridDataset.eddy_identification"]}
{"id": "C62", "title": "Time interpolation weights", "statement": "At each step of an advection with a collection of dates, the weight used is the one for which the mean of the two dates is the time reached, at whole and at half steps, and the two dates follow each other in the collection. When the start is a date and no interval is shorter than a release, every release starts between its two dates; when intervals are whole numbers of releases, all the weights are between 0 and 1. Otherwise weights leave [0, 1]: values are extrapolated. Interpolation at a time uses the two whole dates around it with weights in [0, 1] for times which are not negative, not for negative ones.", "quantifier": "every collection with increasing dates, start, step, number of releases, forward and backward", "why_tests_cant": "all steps", "anchors": ["src/py_eddy_tracker/dataset/grid.py: GridCollection.advect", "src/py_eddy_tracker/dataset/grid.py: GridCollection.get_next_time_step"]}
{"id": "C63", "title": "Pixels inside a contour are all found", "statement": "The pixel search of a regular grid returns exactly the grid points inside the contour, each once, when every point of the contour is above the first row of centres and, on a grid which does not wrap, the contour lies in the turn of longitude which starts at the first bound of the grid; on a grid around the earth, when the contour meets this turn and is narrow, the points are taken modulo whole turns and the seam has no effect. Outside of these cases pixels are lost: a contour which touches the first row, one of another turn away from the seam or one nearly as wide as the earth finds nothing, and one across the western side of a grid which does not wrap finds pixels of the other side.", "quantifier": "every contour and every regular grid with a margin of at least one cell", "why_tests_cant": "prefilter completeness", "anchors": ["src/py_eddy_tracker/poly.py: get_pixel_in_regular", "src/py_eddy_tracker/generic.py: bbox_indice_regular", "src/py_eddy_tracker/generic.py: nearest_grd_indice"]}
{"id": "C64", "title": "Cell bounds enclose their centres", "statement": "The bounds built from two or more centres are one more number; for evenly spaced centres they are the middles between centres. For increasing centres each centre is above its lower bound, and is below its upper bound exactly when the next gap is less than twice its own gap; the bounds increase exactly when no gap is three times the gap before or more. So uneven centres can have bounds which decrease.", "quantifier": "every list of centres of length at least two", "why_tests_cant": "all lists", "anchors": ["src/py_eddy_tracker/dataset/grid.py: GridDataset.c_to_bounds"]}
{"id": "C65", "title": "Comparison of two atlases puts each eddy in one family", "statement": "The families of a comparison hold exactly: eddies with no link of enough score; eddies with one link whose other end has no other link, by score below the low threshold, between, or above the high one; eddies with exactly two links towards eddies with no other (parent); the eddies of such a pair (twin); the other eddies with multiple matches (complex). Each eddy of both datasets is in exactly one family when the low threshold does not exceed the high one, each family holds an eddy once, and the families of single matches of both datasets are aligned link by link. Thresholds are not checked: with low above high an eddy is in two families.", "quantifier": "every list of links, repeated links included, every score and threshold", "why_tests_cant": "all matches", "anchors": ["src/py_eddy_tracker/appli/eddies.py: get_group"]}
{"id": "C66", "title": "Line simplification keeps exactly the points far from the last kept one", "statement": "Simplifying a line keeps the first valid point, then keeps a valid point exactly when its distance to the last kept point is above the precision, and keeps the first gap of each run of gaps. The signed shortcuts on one coordinate never change the decision. A line whose only valid point is the last one loses it.", "quantifier": "every line with any gaps and every non negative precision", "why_tests_cant": "the decision depends on the whole history of kept points", "anchors": ["src/py_eddy_tracker/generic.py: simplify"]}
{"id": "C67", "title": "Association does not depend on the order of the eddies when costs differ", "statement": "When no two allowed pairs have the same cost, reordering the eddies of either date, or exchanging the two dates, gives the same links up to that reordering. With equal costs the links depend on the order.", "quantifier": "every pair of cost matrices equal up to a reordering or a transposition, with pairwise distinct costs", "why_tests_cant": "all matrices and all permutations", "anchors": ["src/py_eddy_tracker/observations/observation.py: EddiesObservations.solve_simultaneous", "src/py_eddy_tracker/observations/observation.py: EddiesObservations.tracking"]}
{"id": "C68", "title": "Overlap tracker keeps the best overlaps above the threshold", "statement": "With the overlap tracker every link joins two eddies whose overlap is above the minimum, links are one-to-one, and every candidate pair above the minimum that is not linked shares an eddy with a linked pair of at least the same overlap.", "quantifier": "every list of candidate pairs with their overlap and every minimum", "why_tests_cant": "all candidate lists", "anchors": ["src/py_eddy_tracker/featured_tracking/area_tracker.py: AreaTracker.tracking", "src/py_eddy_tracker/featured_tracking/area_tracker.py: mask_cmin"]}
{"id": "C69", "title": "Merging two datasets keeps their tracks apart", "statement": "Merging a dataset sorted by track with another one keeps the rows of both in order, keeps the track numbers of the first, and gives to two rows of the second the same number iff they had the same number, never a number of the first. When the last row of the first dataset does not hold its largest number, tracks of the two datasets can become one.", "quantifier": "every pair of datasets, the first not empty and sorted by track", "why_tests_cant": "all datasets", "anchors": ["src/py_eddy_tracker/observations/observation.py: EddiesObservations.merge"]}
{"id": "C70", "title": "Longitudes of a track are unwrapped around its first observation", "statement": "After normalisation the longitude of every observation is congruent to the stored one modulo 360 and within 180 degrees of the first observation of its track; contour longitudes are within 180 degrees of the longitude of their own observation.", "quantifier": "every dataset sorted by track and all longitudes", "why_tests_cant": "all longitudes", "anchors": ["src/py_eddy_tracker/observations/tracking.py: TrackEddiesObservations.normalize_longitude"]}
{"id": "C71", "title": "Selection by direction keeps whole tracks by their net displacement", "statement": "Selecting by direction keeps exactly the observations of tracks whose displacement from first to last observation goes in that direction by more than the given value, longitudes being compared the short way round in extract_in_direction and as stored in extract_toward_direction. With west=True and a non negative span extract_toward_direction keeps nothing.", "quantifier": "every dataset sorted by track with at least two observations and every threshold", "why_tests_cant": "all datasets", "anchors": ["src/py_eddy_tracker/observations/tracking.py: TrackEddiesObservations.extract_toward_direction", "src/py_eddy_tracker/observations/tracking.py: TrackEddiesObservations.extract_in_direction"]}
{"id": "C72", "title": "First observation of each track in each box", "statement": "extract_first_obs_in_box keeps exactly the observations that are the first of their track in their longitude/latitude box.", "quantifier": "every dataset, in any order, and every positive box size", "why_tests_cant": "all datasets", "anchors": ["src/py_eddy_tracker/observations/tracking.py: TrackEddiesObservations.extract_first_obs_in_box"]}
{"id": "C73", "title": "Lifetime and counts per track", "statement": "The lifetime of an observation is the number of observations of its track, and count_by_track gives for every number the number of selected observations of that track.", "quantifier": "every dataset, sorted by track for the lifetime, and every mask", "why_tests_cant": "all datasets", "anchors": ["src/py_eddy_tracker/observations/tracking.py: TrackEddiesObservations.lifetime", "src/py_eddy_tracker/observations/tracking.py: count_by_track"]}
{"id": "C74", "title": "Each merging, splitting, birth and death is reported exactly once", "statement": "The list of merging events holds exactly one entry for every segment whose last observation has a next one, with that last observation, the observation merged into and the previous one of the latter; entries are ordered by time. The same holds for splitting events with starts of segments. Without triplets, the observations merged into (or split from) are listed once each in increasing order. Births are the first observations of segments without previous one, deaths the last ones without next one; those of the first segment are left out when it has no link at all, even if its network is not the trash.", "quantifier": "every network sorted by segment, every order of numpy's argsort on ties", "why_tests_cant": "all networks: any number of segments and any links", "anchors": ["src/py_eddy_tracker/observations/network.py: NetworkObservations.merging_event", "src/py_eddy_tracker/observations/network.py: NetworkObservations.splitting_event", "src/py_eddy_tracker/observations/network.py: NetworkObservations.birth_event", "src/py_eddy_tracker/observations/network.py: NetworkObservations.death_event", "src/py_eddy_tracker/observations/network.py: NetworkObservations.first_is_trash"]}
{"id": "C75", "title": "Selecting networks by number gives exactly these networks", "statement": "Selecting a list of network numbers, each between the smallest and the largest number of the dataset, keeps exactly the observations of these networks with their links re-indexed; a number of the range with no observation adds nothing. Selecting unique segment numbers keeps exactly the observations of these segments. A number below the smallest one selects another network, and a number above the largest one fails.", "quantifier": "every network dataset sorted by network and segment and every list of numbers", "why_tests_cant": "all datasets and all lists of numbers", "anchors": ["src/py_eddy_tracker/observations/network.py: NetworkObservations.networks_mask", "src/py_eddy_tracker/observations/network.py: NetworkObservations.networks", "src/py_eddy_tracker/observations/network.py: generate_mask_from_ids"]}
{"id": "C76", "title": "Selection of networks on duration and removal of the trash keep whole networks", "statement": "Selection on duration keeps exactly the networks whose latest minus earliest time plus one is between the bounds, a negative upper bound being no bound (10^12). Removal of the trash removes exactly network 0 when no observation of the first segment has a link, and is the identity otherwise; network 0 is then removed even when others of its segments have links.", "quantifier": "every network dataset sorted by network and segment and every pair of bounds", "why_tests_cant": "all datasets", "anchors": ["src/py_eddy_tracker/observations/network.py: NetworkObservations.mask_longer_than", "src/py_eddy_tracker/observations/network.py: NetworkObservations.longer_than", "src/py_eddy_tracker/observations/network.py: NetworkObservations.remove_trash"]}
{"id": "C77", "title": "Links around virtual observations join consecutive rows", "statement": "After the correction of links, a virtual observation that is neither the first nor the last row is linked both ways with the rows before and after it, and every link not next to a virtual observation is unchanged. A virtual first row changes the next link of the last row of the dataset, and a virtual last row writes out of the array.", "quantifier": "all links and all positions of virtual observations", "why_tests_cant": "any number of consecutive virtual rows", "anchors": ["src/py_eddy_tracker/observations/network.py: fix_next_previous_obs"]}
{"id": "C78", "title": "A network built from groups is well formed", "statement": "The network built from a sorted set of groups split in segments has rows sorted by network and segment, links that are absent or rows of the same network, next links strictly later and previous links strictly earlier, never more than the window away before reordering. Two successive rows of one segment are linked to each other and follow in time, and two rows linked to each other are successive rows of one segment. Rows of network 0 have no link.", "quantifier": "every set of groups, every overlap, window and order of equal rows", "why_tests_cant": "composition of the split, the sort and the renumbering of links for all inputs", "anchors": ["src/py_eddy_tracker/observations/network.py: NetworkObservations.from_split_network", "src/py_eddy_tracker/observations/tracking.py: TrackEddiesObservations.split_network"]}
{"id": "C79", "title": "Tracks kept by date live at both dates", "statement": "Keeping the tracks by date and number of days keeps exactly the rows of the tracks which have an observation at the date and one that number of days after (or before). The rows must be sorted by track if the track numbers are unsigned, otherwise rows of other tracks are taken; a dataset without any row raises an error.", "quantifier": "every dataset, date and signed number of days", "why_tests_cant": "all the orders of rows and gaps of tracks", "anchors": ["src/py_eddy_tracker/observations/groups.py: GroupEddiesObservations.keep_tracks_by_date", "src/py_eddy_tracker/observations/observation.py: EddiesObservations.iter_on"]}
{"id": "C80", "title": "The atlas of particle targets pairs the right dates", "statement": "In the atlas of targets each observation of a used start date, when there are observations at that date plus the duration, receives its targets among exactly the observations of that end date, numbered in the full dataset; every other observation has no target. The code leaves out the last start date which has an end date.", "quantifier": "every dataset with integer dates, every duration of both signs, every advection", "why_tests_cant": "every layout of dates", "anchors": ["src/py_eddy_tracker/observations/groups.py: GroupEddiesObservations.particle_candidate_atlas", "src/py_eddy_tracker/observations/groups.py: GroupEddiesObservations.fill_coherence", "src/py_eddy_tracker/observations/groups.py: particle_candidate_step"]}
{"id": "C81", "title": "Containment agrees with geometry", "statement": "Off the boundary the winding number of a triangle is 1, -1 or 0 as the point is strictly inside a triangle turning left, right, or outside; for any contour it is the sum over the triangles made with its edges and any other point, and it changes sign with the direction; a point strictly on one side of all the edges is inside, and a point separated from the vertices by a line is outside. On an edge the answer depends on the direction of the contour.", "quantifier": "every contour, crossing itself or not, and every point", "why_tests_cant": "the claim ranges over all contours and points of the plane", "anchors": ["src/py_eddy_tracker/poly.py: winding_number_poly", "src/py_eddy_tracker/poly.py: is_left"]}
{"id": "C82", "title": "Centers close to each other", "statement": "The pairs returned for a distance delta are exactly the pairs of centers whose latitudes differ by at most delta and whose longitudes differ by at most delta modulo whole turns, in lexicographic order and once.", "quantifier": "every list of centers, every delta", "why_tests_cant": "all positions and turns of longitude", "anchors": ["src/py_eddy_tracker/poly.py: close_center"]}
{"id": "C83", "title": "Meshed particles fill the contours", "statement": "The particles created with a step are exactly the points of the lattice of multiples of the step which are inside each contour, each once, contour by contour, sorted by longitude then latitude; the creation ends for all contours with two different points.", "quantifier": "every list of contours and positive step", "why_tests_cant": "all contours and steps", "anchors": ["src/py_eddy_tracker/poly.py: create_meshed_particles"]}
{"id": "C84", "title": "A contour inside another one", "statement": "The test tells whether there is one whole number of turns which puts all the vertices of the inner contour inside the outer one, for contours narrower than 180 degrees; wider contours can be refused, and contours whose edges cross can be accepted as only vertices are tested.", "quantifier": "every pair of contours narrower than 180 degrees", "why_tests_cant": "all contours and turns of longitude", "anchors": ["src/py_eddy_tracker/poly.py: poly_contain_poly"]}
{"id": "C85", "title": "Convex flag", "statement": "The flag of a closed contour is true exactly when all its turns are strictly left or none is; so a star is accepted and a contour with three vertices in a line is accepted or refused according to its direction.", "quantifier": "every closed contour of at least two points", "why_tests_cant": "all contours", "anchors": ["src/py_eddy_tracker/poly.py: convex"]}
{"id": "C86", "title": "Filaments hold the last positions of each particle", "statement": "After any number of releases, slot s of the filament of a particle holds its position s releases ago, nothing if there were fewer releases, and the slot after each filament is empty.", "quantifier": "every number of particles, filament size of at least one, and history of positions", "why_tests_cant": "all histories", "anchors": ["src/py_eddy_tracker/dataset/grid.py: RegularGridDataset.filament", "src/py_eddy_tracker/dataset/grid.py: GridCollection.filament"]}
{"id": "C87", "title": "The count grid says how many eddies cover each pixel", "statement": "Counting eddies on a grid from their contours gives at each pixel the number of eddies whose contour contains the centre of the pixel, modulo whole turns, whatever the turn in which each contour is stored. An eddy whose contour touches the first row of the grid is not counted at all.", "quantifier": "every collection of eddies, every regular grid", "why_tests_cant": "all contours and grids, seam and turns", "anchors": ["src/py_eddy_tracker/observations/observation.py: EddiesObservations.grid_count", "src/py_eddy_tracker/observations/observation.py: grid_count_pixel_in", "src/py_eddy_tracker/observations/observation.py: grid_count_", "src/py_eddy_tracker/poly.py: get_pixel_in_regular", "src/py_eddy_tracker/poly.py: reduce_size"]}
{"id": "C88", "title": "Statistics of a grid inside contours use exactly the pixels inside", "statement": "For each eddy the count, mean, largest or smallest value of a grid in its contour is taken over exactly the pixels whose centre is in the contour, modulo whole turns; the mean ignores masked values and is nan when none is left. The largest and smallest values do not ignore masked values, and are an arbitrary extreme constant when there is no pixel.", "quantifier": "every collection of eddies, every regular grid, value and mask", "why_tests_cant": "all contours, grids and masks", "anchors": ["src/py_eddy_tracker/observations/observation.py: EddiesObservations.interp_grid", "src/py_eddy_tracker/observations/observation.py: grid_stat", "src/py_eddy_tracker/poly.py: get_pixel_in_regular"]}
{"id": "C89", "title": "Centre and amplitude of a contour", "statement": "A contour with a masked pixel, or with a height on its wrong side, is refused. Otherwise its extrema are its pixels, not on the edge of the window, with no lower (higher for an anticyclone) unmasked pixel among the eight around. Up to the maximum number of extrema the contour is refused only if it has none, and its centre is the lowest extremum and its amplitude the difference of this height with that of the contour. With more extrema, those which touch by a side are replaced by the pixel nearest to their barycentre, and the contour is refused if more than the maximum are deeper than the given number of steps. The barycentre may be outside the contour, and its height, even on the wrong side, then gives the amplitude; two lowest pixels which touch by a corner are two extrema.", "quantifier": "every grid, mask, window with or without wrap, contour, height, number of extrema and interval", "why_tests_cant": "depends on the shape of every plateau and position of every extremum in the window", "anchors": ["src/py_eddy_tracker/eddy_feature.py: Amplitude.all_pixels_below_h0", "src/py_eddy_tracker/eddy_feature.py: Amplitude.all_pixels_above_h0", "src/py_eddy_tracker/eddy_feature.py: Amplitude", "src/py_eddy_tracker/eddy_feature.py: detect_local_minima_"]}
{"id": "C90", "title": "Coordinates of a regular grid", "statement": "Centres are kept and refused exactly when their bounds decrease; increasing centres are accepted exactly when no gap is more than three times the gap before. The step is the mean gap. A grid is circular exactly when the longitudes of its ends, each taken in its turn, agree to the tolerance; evenly spaced centres whose cells cover one turn are always circular, for both tests of the code, and any number of column is then brought to the column of the grid at the same longitude. Ends which agree to the tolerance but on both sides of a multiple of 360 are not recognised, equal centres are accepted with a step of 0, and when bounds are given there is one centre per bound, so that a grid around the earth has its first cell twice or is not circular.", "quantifier": "every list of centres or bounds", "why_tests_cant": "depends on all the gaps and on where the ends fall in the turn", "anchors": ["src/py_eddy_tracker/dataset/grid.py: RegularGridDataset.setup_coordinates", "src/py_eddy_tracker/dataset/grid.py: RegularGridDataset.is_circular", "src/py_eddy_tracker/dataset/grid.py: GridDataset.setup_coordinates"]}
{"id": "C91", "title": "Contours kept and nearest contour of a level", "statement": "Of the contours drawn, those with less than four vertices, open by more than a hundredth of degree (unless open ones are asked for) or flat to 1e-8 degree are dropped and all the others kept, in order, closed exactly. Every table points to the vertices and the box of the contour it stands for. The search in a level answers nothing exactly when the box of no contour holds the point, at any turn; when the box of the first contour of the level holds it, the answer is the nearest contour whose box holds it, the first one of equals; otherwise the first contour is the answer when its first vertex is at least as near as all of these, although its box does not hold the point. Without any contour drawn, the tables cannot be built.", "quantifier": "every list of drawn contours, level and point", "why_tests_cant": "the answer depends on all the contours of the level, the turn of the longitudes and the first vertex of the first contour", "anchors": ["src/py_eddy_tracker/eddy_feature.py: Contours.__init__", "src/py_eddy_tracker/eddy_feature.py: index_from_nearest_path_with_pt_in_bbox_", "src/py_eddy_tracker/eddy_feature.py: Contours.get_index_nearest_path_bbox_contain_pt"]}
{"id": "C92", "title": "Contours across the seam", "statement": "On a grid which goes round the earth, the contours cut at its first and last meridian are put together: every contour made this way is closed and goes through parts drawn, each used once and moved by at most one turn, each of which starts where the one before stops; all the other contours are unchanged, and nothing changes when no part lies on one of the two meridians. When every part on the first meridian meets one on the last at both ends, and none of the last meets two, all are closed two by two and none is lost. Parts which cannot be closed are lost when open parts stay on both meridians, and kept otherwise.", "quantifier": "every list of contours of a level of a grid whose last meridian is the first one turn further", "why_tests_cant": "parts combine in any number and order", "anchors": ["src/py_eddy_tracker/eddy_feature.py: Contours.find_wrapcut_path_and_join", "src/py_eddy_tracker/eddy_feature.py: Contours.get_next", "src/py_eddy_tracker/eddy_feature.py: Contours.check_closing"]}
{"id": "C93", "title": "Correction of close events", "statement": "Correcting the close events of a network keeps every observation, with its network, time and next observation; its number of segment is one of its network and its previous observation is unchanged or is the end of a segment which merges into it. Without an event (segment B merges, in less than the days given, into a segment A which split from it) the network is sorted and nothing else. When A does not merge itself and no other segment merges into A at or after the merging, exactly the observations of A from the merging on take the number of B, the first of them comes from the end of B, and a segment still has at most one observation for each time. When events meet each other this last point does not hold: observations of other segments are taken too.", "quantifier": "every sorted network with valid links inside networks, every number of days", "why_tests_cant": "the events are found one after the other in the numbers already changed", "anchors": ["src/py_eddy_tracker/observations/network.py: NetworkObservations.correct_close_events"]}
{"id": "C94", "title": "Swap of tracks at splittings", "statement": "Swapping tracks changes the number of segment of observations and sorts them, and nothing else. When no two swaps start from the same observation, a segment still has at most one observation for each time and the numbers are those of the network. When a segment is in one swap at most, the end of the short main segment and the long segment which splits from it exchange their numbers and all other observations keep theirs. Two segments which split from the same observation and are both swapped get the same number. When the main segment stops at the splitting itself, the decision depends on the last observation of the dataset.", "quantifier": "every sorted network with valid links and times rising along segments, every threshold and cost", "why_tests_cant": "swaps follow each other on numbers already changed", "anchors": ["src/py_eddy_tracker/observations/network.py: NetworkObservations.swap_track"]}
{"id": "C95", "title": "Selection by area", "statement": "Extracting an area keeps exactly the observations strictly inside its latitudes and longitudes, in their order and with all their fields, whatever the turn in which the longitudes of the area and of each observation are written. An area cut at a meridian gives two parts without common observation, which miss only the observations on the meridian. The western edge is never selected, even by an area of a whole turn, nor are the poles by an area without latitudes, and an area written from a longitude to a smaller one selects nothing.", "quantifier": "every dataset and every area", "why_tests_cant": "equality on edges and turns of longitude", "anchors": ["src/py_eddy_tracker/observations/observation.py: EddiesObservations.extract_with_area", "src/py_eddy_tracker/observations/observation.py: EddiesObservations.extract_with_mask"]}
{"id": "C96", "title": "Sub sampling in time, first and last observations", "statement": "Sub sampling in time keeps exactly the observations at a whole number of steps from the reference. When the observation number is zero exactly at the start of each track, the first observations and the last observations are the first and the last row of each track, one by track and in the same order of tracks. A track which does not start at zero any more, after a selection, is lost by the first and hides the last row of the track before it, and the last observations of an empty dataset is an error.", "quantifier": "every dataset, every reference and every non null step", "why_tests_cant": "all lengths of tracks", "anchors": ["src/py_eddy_tracker/observations/observation.py: EddiesObservations.time_sub_sample", "src/py_eddy_tracker/observations/observation.py: EddiesObservations.first_obs", "src/py_eddy_tracker/observations/observation.py: EddiesObservations.last_obs"]}
{"id": "C97", "title": "Observations in polygons", "statement": "The mask of a list of polygons holds exactly the observations which are in at least one of them, modulo whole turns, although each polygon is tested only on the observations not yet found, when some observation is left for the last polygon. When all the observations are already in the first polygons the call fails. The contour of a list of points is the first which contains each of them, -1 when none does or for a point which is not a number.", "quantifier": "every dataset, every list of polygons narrower than 180 degrees with two different points", "why_tests_cant": "order of the polygons and mask on masked rows", "anchors": ["src/py_eddy_tracker/observations/observation.py: EddiesObservations.mask_from_polygons", "src/py_eddy_tracker/observations/observation.py: EddiesObservations.contains", "src/py_eddy_tracker/observations/observation.py: EddiesObservations.inside", "src/py_eddy_tracker/poly.py: insidepoly"]}
{"id": "C98", "title": "Statistics by bins", "statement": "With increasing edges, the counts by bins are the numbers of observations from the left edge to the right edge excluded, the right edge of the last bin being included; they add up to the number of observations between the first and the last edge. Means are those of the observations of each bin and are not a number for an empty bin; percents add up to 100. Without edges, unit bins start at the least value and each observation is counted exactly once. The documented method std gives counts, and an empty selection without edges is an error.", "quantifier": "every dataset, every list of increasing edges, every mask", "why_tests_cant": "edges, empty bins and sums over any number of observations", "anchors": ["src/py_eddy_tracker/observations/observation.py: EddiesObservations.hist", "src/py_eddy_tracker/observations/observation.py: EddiesObservations.bins_stat", "src/py_eddy_tracker/generic.py: hist_numba"]}
{"id": "C99", "title": "Filtered grids are weighted means", "statement": "Each cell of a filtered grid is the mean of the values around it, weighted by the kernel of its latitude: masked cells and cells outside the grid take no part, and columns go around a circular grid. Lines above the highest latitude and lines without any value are masked; a masked cell stays masked, or with an extension a cell is masked when the weights found around it are too small. So a constant field is unchanged, values stay between the bounds of the field when no weight is negative, the result does not depend on the column a circular grid starts with, and the high-pass and low-pass filters share the field. A kernel which reaches further than the whole circle, or of one column, makes the filter fail, and a cell whose weights cancel is neither masked nor a number.", "quantifier": "every grid, mask, kernel of odd size, highest latitude and extension", "why_tests_cant": "all sizes of grids and kernels, edges and seam", "anchors": ["src/py_eddy_tracker/dataset/grid.py: RegularGridDataset.convolve_filter_with_dynamic_kernel", "src/py_eddy_tracker/dataset/grid.py: GridDataset.high_filter", "src/py_eddy_tracker/dataset/grid.py: GridDataset.low_filter", "src/py_eddy_tracker/dataset/grid.py: RegularGridDataset.bessel_high_filter", "src/py_eddy_tracker/dataset/grid.py: RegularGridDataset.bessel_low_filter"]}
{"id": "C100", "title": "Kernels of filters", "statement": "The kernel made from its eastern half is this half and its mirror image without the empty columns and lines around: its number of columns is odd, it is symmetric, no weight is lost and nothing more could be removed. It fails only when all the weights are zero. When the empty lines are the same on both sides of the centre, the kernel is centred, as the filter supposes; otherwise the filter uses a shifted kernel.", "quantifier": "every half kernel of the announced shape", "why_tests_cant": "all sizes and patterns of zeros", "anchors": ["src/py_eddy_tracker/dataset/grid.py: RegularGridDataset.finalize_kernel"]}
{"id": "C101", "title": "Variables kept by a grid", "statement": "A variable of the file is read once, with the indices of this first reading and the longitudes first; until it is stored again or the grid cleaned, every later reading gives the same array, whatever the calls made in between and whatever the indices asked. When the grid is written, the variables read come back with the orientation of the file, as do copies made after the reading. A copy made before the variable was read is written transposed, variables added by add_grid are not written, a clean loses the variables computed in memory, and the velocities computed from a height are kept when another height is asked.", "quantifier": "every file and every sequence of calls", "why_tests_cant": "histories of calls of any length", "anchors": ["src/py_eddy_tracker/dataset/grid.py: GridDataset.grid", "src/py_eddy_tracker/dataset/grid.py: GridDataset.copy", "src/py_eddy_tracker/dataset/grid.py: GridDataset.add_grid", "src/py_eddy_tracker/dataset/grid.py: GridDataset.write", "src/py_eddy_tracker/dataset/grid.py: GridDataset.clean", "src/py_eddy_tracker/dataset/grid.py: GridDataset.populate", "src/py_eddy_tracker/dataset/grid.py: RegularGridDataset.add_uv", "src/py_eddy_tracker/dataset/grid.py: RegularGridDataset.uv_for_advection"]}
{"id": "C102", "title": "Collections of grids", "statement": "An item of a collection is the grid of the first date equal to the one asked, an error if there is none. After any number of shifts a non empty collection holds the most recent grids in order, as many as at the start. Resetting unloads all the loaded grids when there are more than the limit and changes nothing otherwise. A path is the starting positions followed by those of the successive releases, and fails only when the dates run out. The interpolation at the last date fails, and the first time of a path is in days while the next ones are in seconds.", "quantifier": "every collection, sequence of shifts and number of releases", "why_tests_cant": "any number of shifts and releases", "anchors": ["src/py_eddy_tracker/dataset/grid.py: GridCollection.__getitem__", "src/py_eddy_tracker/dataset/grid.py: GridCollection.shift_files", "src/py_eddy_tracker/dataset/grid.py: GridCollection.reset_grids", "src/py_eddy_tracker/dataset/grid.py: GridCollection.path", "src/py_eddy_tracker/dataset/grid.py: GridCollection.interp"]}
{"id": "C103", "title": "Sizes and numbers of networks and segments", "statement": "For rows sorted by network then segment, the sizes of networks are the numbers of rows from the lowest number to the highest, networks without rows included; the networks counted are those with rows, and the slice of a network holds exactly its rows. The segments counted are the distinct pairs of network and segment, their sizes are their numbers of rows, and the network and segment of the k-th one are the k-th pair in order. A number below the lowest network reads the table from its end: the number of rows of another network is given, or an error.", "quantifier": "every pair of columns of the same size, sorted by network then segment, and every list of numbers", "why_tests_cant": "all sizes and gaps in the numbers", "anchors": ["src/py_eddy_tracker/observations/network.py: NetworkObservations.network_size", "src/py_eddy_tracker/observations/network.py: NetworkObservations.nb_network", "src/py_eddy_tracker/observations/network.py: NetworkObservations.network_slice", "src/py_eddy_tracker/observations/network.py: NetworkObservations.segment_size", "src/py_eddy_tracker/observations/network.py: NetworkObservations.nb_segment", "src/py_eddy_tracker/observations/network.py: NetworkObservations.network_segment_size", "src/py_eddy_tracker/observations/network.py: NetworkObservations.unique_segment_to_id"]}
{"id": "C104", "title": "Tables kept by a network stay right", "statement": "Whatever the calls made before, sizes, slices, counts and identifiers are those of a network with the present columns which keeps no table, as long as the networks are not renumbered after their table was asked for without a sort in between. Renumbering segments gives in each network the numbers from the one asked, one after the other, and keeps the tables right. After a renumbering of networks whose table was already asked for, sizes are still answered for the former numbers.", "quantifier": "every sorted network and every sequence of calls", "why_tests_cant": "histories of calls of any length", "anchors": ["src/py_eddy_tracker/observations/network.py: NetworkObservations.index_network", "src/py_eddy_tracker/observations/network.py: NetworkObservations.index_segment_track", "src/py_eddy_tracker/observations/network.py: NetworkObservations.segment_track_array", "src/py_eddy_tracker/observations/network.py: NetworkObservations.reset_index", "src/py_eddy_tracker/observations/network.py: NetworkObservations.numbering_segment", "src/py_eddy_tracker/observations/network.py: NetworkObservations.numbering_network", "src/py_eddy_tracker/observations/network.py: NetworkObservations.sort"]}
{"id": "C105", "title": "Methods mapped on segments and networks", "statement": "A method mapped on segments or networks is given for each of them the values of its rows in their order. With one result for each row, the rows of a group receive what the method answers for this group: one value repeated, or a list in the order of the rows; the call fails when a list has another size than the group. A mean by segment gives all the rows of a segment their mean. With one result for each group, the results come by increasing number, and in a dictionary under the number of the network.", "quantifier": "every sorted network, method and field", "why_tests_cant": "all sizes and all methods", "anchors": ["src/py_eddy_tracker/observations/network.py: NetworkObservations.map_segment", "src/py_eddy_tracker/observations/network.py: NetworkObservations.map_network", "src/py_eddy_tracker/observations/network.py: NetworkObservations.mean_by_segment"]}
{"id": "C106", "title": "The command which extracts a part of the networks", "statement": "The command writes exactly the rows of the networks asked for whose network lasts at least and at most the number of days asked for and whose day is in the period asked for, in the order of the file, with their links when both ends are kept. A negative day of the period is counted from the first or the last day of the rows chosen by the other options. With the option which removes dead ends the command fails for every file, and the option which removes the trash changes nothing.", "quantifier": "every sorted network with right links, and every set of options, when a row of the networks asked for exists", "why_tests_cant": "all networks and all combinations of options", "anchors": ["src/py_eddy_tracker/appli/network.py: subset_network", "src/py_eddy_tracker/observations/network.py: NetworkObservations.extract_with_period", "src/py_eddy_tracker/observations/network.py: NetworkObservations.longer_than", "src/py_eddy_tracker/observations/network.py: NetworkObservations.networks"]}
{"id": "C107", "title": "Contour of greatest speed", "statement": "From the contour of an eddy, the search of the greatest mean speed goes through the nearest contours of the next levels inwards, one level after the other, and stops at the first level which has none or whose nearest contour does not hold the centre. Speeds are given for these contours in this order, and the inner contour is the last one. The contour selected has the greatest mean speed among the contour of the eddy and the contours met with more pixels than the minimum, the innermost of them when equal, and its level number is the one given. When the mean speed of the contour of the eddy is not a number, this contour is always the one selected.", "quantifier": "every family of levels, both rotations, every starting level and every number of pixels", "why_tests_cant": "all numbers of levels and all speeds", "anchors": ["src/py_eddy_tracker/dataset/grid.py: GridDataset.eddy_identification", "src/py_eddy_tracker/dataset/grid.py: GridDataset.get_uavg", "src/py_eddy_tracker/eddy_feature.py: Contours.iter"]}
{"id": "C108", "title": "Contours which hold several eddies", "statement": "After the identification, an unused contour of an anticyclone at a level is marked when it holds at least two eddies found at the next level. For cyclones the heights compared are not those of the next level inwards: at the second level it is the height of the last level, and above it the height two levels below; two eddies of the next level are not marked.", "quantifier": "every family of levels of contours, both rotations and every list of eddies found", "why_tests_cant": "all numbers of levels and of contours", "anchors": ["src/py_eddy_tracker/eddy_feature.py: Contours.label_contour_unused_which_contain_eddies"]}
{"id": "C109", "title": "Match of two datasets", "statement": "The match gives each pair of rows once, in the order of the first dataset then of the second one, with its score: exactly the pairs whose score reaches the minimum, among the pairs whose contours have crossing boxes (modulo a turn) for the overlap method, or whose centres are closer than the distance on each axis (modulo a turn) for the centre method. With subsets of rows, the indices are those of the subsets, and re-referencing gives back the rows of the dataset. With the default minimum, zero, the overlap method also gives pairs with crossing boxes and no common area. An unknown method always fails.", "quantifier": "every two datasets with contours which are not empty and less than half a turn wide together, every subset of rows, mode of overlap and minimum", "why_tests_cant": "all datasets, subsets and contours", "anchors": ["src/py_eddy_tracker/observations/observation.py: EddiesObservations.match", "src/py_eddy_tracker/observations/observation.py: EddiesObservations.re_reference_index", "src/py_eddy_tracker/poly.py: bbox_intersection", "src/py_eddy_tracker/poly.py: vertice_overlap", "src/py_eddy_tracker/poly.py: close_center"]}
{"id": "C110", "title": "Tracks of another atlas which stay close", "statement": "The selection of the close tracks keeps, with all their rows and in their order, exactly the tracks of the other atlas with at least the minimum number of matching pairs of rows of the same day, days being counted from the first date of the first dataset; nothing is kept when the periods are apart. Pairs are counted, not observations: an observation which matches two observations of the same day counts twice. The selection fails when the other atlas is sorted by time and begins before the first dataset, and when the crossing periods have no common day.", "quantifier": "every two datasets, with the other one grouped by track, its rows in any order of time or inside the period of the first one, and every method of match", "why_tests_cant": "all datasets and all dates", "anchors": ["src/py_eddy_tracker/observations/tracking.py: TrackEddiesObservations.close_tracks", "src/py_eddy_tracker/observations/observation.py: EddiesObservations.align_on", "src/py_eddy_tracker/observations/observation.py: EddiesObservations.match"]}
{"id": "C111", "title": "Rows loaded from a file", "statement": "Loading the rows start to stop of a file, with stop beyond the end or not, gives exactly these rows in their order, in both formats; for zarr the result does not depend on the size of the blocks, and the step of the slice is ignored. Raw values written by blocks are the same as written at once. A slice without end always fails. In netcdf a step greater than one makes the load of two rows or more fail, or gives copies of the first row when the step reaches the end of the slice. A slice of the last row, counted from the end, gives one copy of this row per row of the file and one more.", "quantifier": "every column, slice and size of blocks", "why_tests_cant": "all sizes of files, slices and blocks", "anchors": ["src/py_eddy_tracker/observations/observation.py: EddiesObservations.load_from_zarr", "src/py_eddy_tracker/observations/observation.py: EddiesObservations.copy_data_to_zarr", "src/py_eddy_tracker/observations/observation.py: EddiesObservations.load_from_netcdf", "src/py_eddy_tracker/observations/observation.py: EddiesObservations.create_variable_zarr"]}
{"id": "C112", "title": "Values stored in a packed variable", "statement": "A value in the reach of a packed variable is stored as the nearest multiple of its scale and read back at most half a scale away, whatever the two formats of the write and of the read; a value read is stored again as the same integer, and the order of the values is kept (dates stay sorted). Raw values are the integers of the file, both when written and when read, and variables without scale are stored as they are. When the units of the file are not those of the software, raw values read from zarr are changed by the factor of the units, and those of netcdf are not.", "quantifier": "every packing with a positive scale, every value, both formats", "why_tests_cant": "all values and scales", "anchors": ["src/py_eddy_tracker/observations/observation.py: EddiesObservations.create_variable", "src/py_eddy_tracker/observations/observation.py: EddiesObservations.create_variable_zarr", "src/py_eddy_tracker/observations/observation.py: EddiesObservations.copy_data_to_zarr", "src/py_eddy_tracker/observations/observation.py: EddiesObservations.load_from_netcdf", "src/py_eddy_tracker/__init__.py: VAR_DESCR"]}
{"id": "C113", "title": "Rotation of a dataset in its file", "statement": "The rotation written in a file is the one read back, for both formats and all kinds of datasets, and it agrees with the name of the file. A column of rotations in a netcdf file takes over: its first row gives the rotation, and an empty column makes the load fail; zarr files do not look at it. Tracks of unknown rotation are named cyclonic and read back as anticyclonic.", "quantifier": "every rotation, format and kind of dataset", "why_tests_cant": "all combinations", "anchors": ["src/py_eddy_tracker/observations/observation.py: EddiesObservations.global_attr", "src/py_eddy_tracker/observations/observation.py: EddiesObservations.sign_legend", "src/py_eddy_tracker/observations/tracking.py: TrackEddiesObservations.set_global_attr_netcdf", "src/py_eddy_tracker/observations/observation.py: EddiesObservations.load_from_netcdf", "src/py_eddy_tracker/observations/observation.py: EddiesObservations.load_from_zarr"]}
{"id": "C114", "title": "Fields of a dataset", "statement": "Removing fields keeps the other fields with their values; the fields added by the class (track, n, virtual, ...) stay even when asked to be removed. Adding fields keeps all values and adds columns of zeros; new arrays are dropped without a word when the dataset has no array, and adding to a dataset whose fields were removed fails. A copy has the same fields and values. A merge joins the columns of the first dataset, with zeros where the second one has no such field. A load fills the variables asked for (the list to include wins over the list to remove), and the basic fields which are not loaded are columns of zeros. Concatenating datasets with the same fields joins their columns; but two datasets loaded with different variables pass the check of coherence, and their columns are mixed by position.", "quantifier": "every dataset made by the software, every list of fields and every file", "why_tests_cant": "all sets of fields and all sizes", "anchors": ["src/py_eddy_tracker/observations/observation.py: EddiesObservations.elements", "src/py_eddy_tracker/observations/observation.py: EddiesObservations.remove_fields", "src/py_eddy_tracker/observations/observation.py: EddiesObservations.add_fields", "src/py_eddy_tracker/observations/observation.py: EddiesObservations.concatenate", "src/py_eddy_tracker/observations/observation.py: EddiesObservations.merge", "src/py_eddy_tracker/observations/observation.py: EddiesObservations.coherence", "src/py_eddy_tracker/observations/observation.py: EddiesObservations.build_var_list"]}
{"id": "C115", "title": "Coherence of the segments of a network", "statement": "For each observation whose date plus (forward) or minus (backward) the duration is in the period of the network, the two best targets are taken among exactly the observations of the network at that date, from particles put in the eddies of its date and moved with exactly the fields of the days between, in order; only files of dates of the period are asked for; all other observations have no target. When the period lasts exactly the duration (a single date to treat) the call fails whatever the data, because the message of progress divides by zero; a null duration always fails too.", "quantifier": "every set of observations of integer dates, duration, direction, creation of particles, movement and search of the eddy around a point", "why_tests_cant": "all periods, gaps of dates and durations", "anchors": ["src/py_eddy_tracker/observations/network.py: NetworkObservations.segment_coherence_forward", "src/py_eddy_tracker/observations/network.py: NetworkObservations.segment_coherence_backward", "src/py_eddy_tracker/observations/groups.py: particle_candidate", "src/py_eddy_tracker/observations/groups.py: advect", "src/py_eddy_tracker/dataset/grid.py: GridCollection.from_netcdf_list", "src/py_eddy_tracker/dataset/grid.py: GridCollection.shift_files", "src/py_eddy_tracker/dataset/grid.py: GridCollection.advect"]}
{"id": "C116", "title": "Exchange of particles around an event", "statement": "The statistics from an observation towards a target are those of the percentages of the observations which follow it in its segment, less than the window apart, whose particles end in the segment of the target: each of them and no other, or -1 when there are not enough of them; each event is treated from its origins towards its target, or from its target towards its origins. With at most one observation by day and at most one target in the segment for each one, the buffer is never overrun. Segments are compared without the number of the network, so that a segment of same number in another network is counted too and may overrun the buffer.", "quantifier": "every network, event, window and table of targets", "why_tests_cant": "all networks and windows", "anchors": ["src/py_eddy_tracker/observations/network.py: get_percentile_on_following_obs", "src/py_eddy_tracker/observations/network.py: get_percentile_around_event"]}
{"id": "C117", "title": "Positions of the eddies waited for", "statement": "At each step of a tracking with virtual eddies, the eddies compared to those of the next date are the real ones of the date then the lost ones which are waited for, each at the place foreseen for its track, and a link from one of these carries on its track. A track lost for k dates is supposed to be at its last position plus k times the way between the two eddies of its last link (the first of which may itself be a foreseen one), modulo a turn for the longitude; its other values are the last ones, its date is null and its contours are null, or those of the last eddy, not moved, with the tracker of areas.", "quantifier": "every sequence of dates and eddies, every one-to-one association and at most 127 virtual eddies in a row", "why_tests_cant": "all histories of losses and recoveries", "anchors": ["src/py_eddy_tracker/observations/observation.py: EddiesObservations.propagate", "src/py_eddy_tracker/tracking.py: Correspondances.recense_dead_id_to_extend", "src/py_eddy_tracker/tracking.py: Correspondances.store_correspondance", "src/py_eddy_tracker/featured_tracking/area_tracker.py: AreaTracker.propagate"]}
{"id": "C118", "title": "Links of the reference tracker", "statement": "The reference tracker (CheltonTracker) may link an eddy with an eddy of the next date exactly when the second is in the ellipse which goes from 1.05 degrees on the east, north and south of the first to a reach on its west which is 1.5 degrees up to 5 degrees of latitude, 1.05 degrees from 23 degrees of latitude and a straight line between, longitudes being taken modulo a turn, when the amplitudes and the radii have ratios strictly between 2/5 and 5/2, and when no pixel of the way between them is on the ground. Each eddy is then linked with the nearest of those allowed; if several eddies have the same nearest one, only the one of greatest amplitude keeps the link. A null amplitude of the first eddy raises an error as soon as another eddy is in its ellipse.", "quantifier": "every two sets of eddies, every distance, every mask of the ground and every longitude convention", "why_tests_cant": "all positions, sizes and numbers of eddies", "anchors": ["src/py_eddy_tracker/featured_tracking/old_tracker_reference.py: CheltonTracker.mask_function", "src/py_eddy_tracker/featured_tracking/old_tracker_reference.py: check_ratio", "src/py_eddy_tracker/observations/observation.py: shifted_ellipsoid_degrees_mask2", "src/py_eddy_tracker/observations/observation.py: EddiesObservations.basic_formula_ellipse_major_axis", "src/py_eddy_tracker/observations/observation.py: EddiesObservations.tracking"]}
{"id": "C119", "title": "Files of the tracking command", "statement": "The tracking command reads its files in the order of dates, without the last blank_period ones, and refuses dates which are not regularly spaced, fewer files than TRACK_DURATION_MIN, no file at all, and exactly three files when virtual eddies are used. Otherwise the links are saved, and every observation of the files read is then written in exactly one of the three datasets (untracked, long tracks, short tracks), once; a track is in the long dataset exactly when it has at least TRACK_DURATION_MIN rows. When no track is shorter than TRACK_DURATION_MIN, or when there is no track, the command fails after having saved the links and writes no dataset. The choice of the files keeps one file out of sub_sampling_step in the order of dates, then those between the two dates; giving one date without the other is an error.", "quantifier": "every list of files with any dates, names and observations, every association which is one to one, every minimum length, blank period and memory of at most 127 dates", "why_tests_cant": "all the histories of dates, links and lost tracks", "anchors": ["src/py_eddy_tracker/appli/eddies.py: browse_dataset_in", "src/py_eddy_tracker/appli/eddies.py: track", "src/py_eddy_tracker/tracking.py: Correspondances.get_unused_data", "src/py_eddy_tracker/tracking.py: Correspondances.longer_than", "src/py_eddy_tracker/tracking.py: Correspondances.shorter_than", "src/py_eddy_tracker/tracking.py: Correspondances.merge"]}
{"id": "C120", "title": "Circle fitted on a contour", "statement": "When the vertices of a contour (the first one, repeated at the end, taken once) are not all at the same place, the circle given by the fit minimises over all the circles the sum of the squares of (squared distance of the vertex to the centre minus squared radius); its radius is positive and its square is the mean of the squared distances. The function fails exactly when the centre found is a vertex of the contour, which can happen for a simple contour. When three vertices are not on a line this circle is unique, so that the result does not depend on the solver, the two fitting functions agree, vertices on a circle give this circle, and a contour moved, turned, reflected or enlarged gives the circle moved, turned, reflected or enlarged with the same shape error. When no vertex is out of the circle the shape error is the part of the disc, in percent, which the contour does not fill; otherwise it is not the documented formula: vertices out of the circle are pulled on it, and a square around the disc of radius 1 has an error of 100 % instead of 27 %.", "quantifier": "every contour, every least squares solver, every similarity of the plane", "why_tests_cant": "all the contours and all the positions, directions and sizes", "anchors": ["src/py_eddy_tracker/poly.py: fit_circle", "src/py_eddy_tracker/poly.py: fit_circle_", "src/py_eddy_tracker/poly.py: shape_error", "src/py_eddy_tracker/poly.py: poly_area"]}
{"id": "C121", "title": "Regular resampling of contours and profiles", "statement": "A contour is resampled in exactly the number of points asked for (number of vertices times the factor by default); it is an error only without vertex or with a negative number. Point k of n is on a segment of the contour, at the same part of it for both coordinates, at the position k/(n-1) of the whole length measured along the contour, each segment counting for its distance and at least one millimetre. A vertex at a regular position is kept, hence both ends (a closed contour stays closed) and, for segments of the same length, all the vertices when the points are a multiple of the segments. The mean along a contour uses every point but the first one once, is nan for one nan unless nan are removed, and stays between the bounds of the values. The profile of speeds of an eddy has the number of values asked for, begins with the speed of the outer contour, ends with that of the innermost one, and has the linear interpolation at regular positions between.", "quantifier": "every contour, every distance function, every number of points, every field of values, every list of speeds", "why_tests_cant": "all the shapes, spacings and repeated vertices", "anchors": ["src/py_eddy_tracker/generic.py: uniform_resample", "src/py_eddy_tracker/dataset/grid.py: raw_resample", "src/py_eddy_tracker/dataset/grid.py: mean_on_regular_contour", "src/py_eddy_tracker/dataset/grid.py: RegularGridDataset.speed_coef_mean"]}
{"id": "C122", "title": "Distances and local coordinates on the sphere", "statement": "The distance between two positions is the radius of the sphere times the angle of their directions; it is symmetric, between 0 and half of the circumference, null exactly for the same place (same latitude and longitudes equal up to whole turns, out of the poles), satisfies the triangle inequality, and does not change with whole turns, a common shift of longitude or an exchange of the hemispheres; along a meridian or the equator it is the radius times the difference of angle. The matrix of distances has one row for each position of the first list and one column for each of the second, nan exactly for the couples more than 15 degrees of latitude or 20 degrees of longitude (the shortest way round) apart, and kilometres elsewhere. Local coordinates have for norm the distance to the reference; for a reference and a position out of the poles the transformation to local coordinates and back gives the same latitude and the same longitude up to whole turns, within 180 degrees of the reference; the other way, coordinates shorter than half of the circumference are given back. With a reference on a pole every local point gets the longitude of the reference. Contours drawn as circles have the number of points asked for, are closed, and every point is exactly at the radius times the factor from the centre, in regular directions; with only_virtual the other observations are left.", "quantifier": "all the longitudes and latitudes, all the lists of positions, all the radii under half of the circumference", "why_tests_cant": "all the positions of the sphere, both sides of the date line and all latitudes", "anchors": ["src/py_eddy_tracker/generic.py: distance", "src/py_eddy_tracker/generic.py: distance_grid", "src/py_eddy_tracker/generic.py: coordinates_to_local", "src/py_eddy_tracker/generic.py: local_to_coordinates", "src/py_eddy_tracker/observations/observation.py: EddiesObservations.circle_contour"]}
{"id": "C123", "title": "Circle of a contour given in degrees", "statement": "Unless the vertices of a contour extend over less than 1e-7 degree in both directions (result: longitude 0, latitude -90, nan), the fitted circle has its centre within half a turn of the mean longitude of the vertices without the first one; the local coordinates of this centre around the mean position are those of the best circle of the local coordinates of the vertices, the radius is that of this circle. Vertices which are all at one distance of their mean position (not on a line) give exactly this position and this distance. The circle of equal area has the mean position as centre and the area of the contour in local coordinates. A contour moved in longitude has its circle moved by the same amount, with the same latitude, radius and error, for both methods. Circles are kept with the contour: the same method asked again gives the first result, also when the vertices were changed in between; the methods do not interfere; an unknown method is an error.", "quantifier": "all the contours with vertices anywhere, all the solvers which return a least squares solution, all the shifts of longitude", "why_tests_cant": "all the positions of the sphere and all the shapes; only a few drawn contours are tested", "anchors": ["src/py_eddy_tracker/dataset/grid.py: fit_circle_path", "src/py_eddy_tracker/dataset/grid.py: _circle_from_equal_area", "src/py_eddy_tracker/dataset/grid.py: _fit_circle_path"]}
{"id": "C124", "title": "Convex hull of a contour", "statement": "The search of the convex hull ends for every contour and fails only without vertex. Its result starts and ends on the first of the leftmost vertices, its other positions are vertices of the contour in the order of the contour, and every vertex which comes in the contour after an edge of the result is strictly on the left of this edge. A contour which is strictly convex and anticlockwise comes back with all its vertices. A contour which never turns to the left gives the leftmost vertex twice. An anticlockwise contour with a hollow just before its leftmost vertex can give a result which is not convex.", "quantifier": "all the contours, any number of vertices", "why_tests_cant": "the loop has no bound and depends on the positions of all the vertices; the only contour of the test suite is clockwise and its result is one point", "anchors": ["src/py_eddy_tracker/poly.py: get_convex_hull", "src/py_eddy_tracker/poly.py: is_left"]}
{"id": "C125", "title": "Weights of the filters", "statement": "A kernel exists exactly when its order is above 0 and the wave length is at least two cells in both directions at the latitude (out of the poles). Its half has as many cells as needed to reach the wave length times the order in both directions, and not one multiple more; the weight of a cell depends only on its distance to the centre divided by the wave length, and is null over the order; the half which is filled by symmetry has the weights of its own distances; along a meridian the distance is the number of steps. Weights of kernel_loess of order 1 are between 0 and 1, 1 only at the centre, decreasing with the distance, null from the wave length on; over order 1 the weights beyond the wave length are negative. Weights of kernel_lanczos are 1 at the centre, never over 1 and null at whole wave lengths. kernel_bessel has pi at the centre and nowhere else by construction.", "quantifier": "all the steps of grid, latitudes, wave lengths, orders and functions of Bessel", "why_tests_cant": "all the latitudes and wave lengths; the number of cells depends on roundings of their ratio", "anchors": ["src/py_eddy_tracker/dataset/grid.py: RegularGridDataset.check_order", "src/py_eddy_tracker/dataset/grid.py: RegularGridDataset.get_step_in_km", "src/py_eddy_tracker/dataset/grid.py: RegularGridDataset.estimate_kernel_shape", "src/py_eddy_tracker/dataset/grid.py: RegularGridDataset.kernel_lanczos", "src/py_eddy_tracker/dataset/grid.py: RegularGridDataset.kernel_loess", "src/py_eddy_tracker/dataset/grid.py: RegularGridDataset.kernel_bessel"]}
{"id": "C126", "title": "Fit of an ellipse", "statement": "For points taken on an ellipse which does not go through the origin, has axes tilted from those of the coordinates, and through which no other conic goes, fit_ellipse gives back the centre, half lengths A and B above 0 and an angle between -90 and 90 degrees such that the ends of both axes, A along the angle and B across it, are on the ellipse. A is the greatest distance to the centre and B the smallest when the origin is inside the ellipse, the other way round when it is outside. When the ellipse goes through the origin the equations do not determine the fit; when its axes are those of the coordinates, a circle included, the call stops on a division by zero.", "quantifier": "all the ellipses, sets of points on them and solvers of least squares", "why_tests_cant": "all the ellipses; which axis comes first depends on the place of the origin of the coordinates", "anchors": ["src/py_eddy_tracker/poly.py: fit_ellipse"]}
{"id": "C127", "title": "Tracks of a dataset one by one", "statement": "For rows grouped by track, iter_track gives each track present once, by increasing number, with all its rows in their order; nb_tracks is the number of tracks present; track_slice gives bounds which select exactly the rows of the track, an empty slice for a number which is not used, an error over the greatest number, and counts negative numbers from the greatest one. As long as the rows do not change, every sequence of requests gets the answers of a new object. After append on an object which was already asked, iter_track, track_slice and nb_tracks go on answering for the former rows; an empty dataset asked for its number of tracks keeps answering 0. For rows in the order of tracks, the age is the rank over the last rank, from 0 for the first row to 100 for the last one, without value for tracks of one row.", "quantifier": "all the datasets of rows grouped by track, requests in any order, and appended rows", "why_tests_cant": "all the groupings and histories of requests; the tables kept by the object outlive the rows", "anchors": ["src/py_eddy_tracker/observations/tracking.py: TrackEddiesObservations.track_slice", "src/py_eddy_tracker/observations/tracking.py: TrackEddiesObservations.iter_track", "src/py_eddy_tracker/observations/tracking.py: TrackEddiesObservations.nb_tracks", "src/py_eddy_tracker/observations/tracking.py: TrackEddiesObservations.age", "src/py_eddy_tracker/observations/observation.py: EddiesObservations.append", "src/py_eddy_tracker/observations/observation.py: EddiesObservations.__add__"]}
{"id": "C128", "title": "Costs by common area, overlap and union of polygons", "statement": "cost_function_common_area gives one cost between 0 and 1 for each pair of contours, masked exactly when it is 1: boxes apart or no common area, the second contour being moved by whole turns near the first one when their first points are more than 180 degrees apart; it is 0 exactly when one of the areas is all common. Boxes are compared before this move: contours whose widths make at most 180 degrees together and whose first points are more than 180 degrees apart are always masked, even on the same place. polygon_overlap gives one score between 0 and 1 for each polygon, 0 without common area; on the smallest area it is 1 when one contains the other, on the union when both are equal; the union score is never the greatest, scores do not change when the polygons are swapped, and the call fails exactly when a division is by a null area. merge gives the contours of the union of all the polygons given, each after a nan, and fails without polygon; shape_polygon gives such a union for each track present, by increasing number.", "quantifier": "all the contours, areas consistent with an intersection and a union, and datasets grouped by track", "why_tests_cant": "all the contours and their places around the change of longitude", "anchors": ["src/py_eddy_tracker/observations/observation.py: EddiesObservations.cost_function_common_area", "src/py_eddy_tracker/poly.py: create_vertice", "src/py_eddy_tracker/poly.py: merge", "src/py_eddy_tracker/poly.py: polygon_overlap", "src/py_eddy_tracker/observations/tracking.py: TrackEddiesObservations.shape_polygon"]}
{"id": "C129", "title": "Azimuth of the tracks", "statement": "For rows grouped by track, get_azimuth gives one value for each track present, by increasing number, over -90 and up to 270 degrees: 90 degrees more than the direction, clockwise from the north, of the great circle from the place of the first row to that of the last one. A track to the north along a meridian, or of one row, has 90, to the south 270, to the east on the equator 180, to the west 0. With the option equatorward the sign changes for the tracks which start in the south. The sign is that of the documentation (positive to the pole, negative to the equator) only for tracks which end to the west: a track straight to the equator from the north has 270 and a track straight to the south pole from the south has -270, and every track which ends to the east has over 90 in the north.", "quantifier": "all the datasets of rows grouped by track, with all the places", "why_tests_cant": "all the places on the sphere; the direction comes from transcendental functions", "anchors": ["src/py_eddy_tracker/observations/tracking.py: TrackEddiesObservations.get_azimuth"]}
{"id": "C130", "title": "Centred differences of a field", "statement": "compute_finite_difference, for every width of one or more: in latitude and in longitude, each value is the difference of the values one width after and one width before over the distance between the two places (at the latitude, for longitudes), nan where one of them is nan or out of the grid; with wrap and a width up to the number of columns, the columns go on after the last one. On a regular grid the slopes of an affine field are exact. A width which is not positive is not refused: 0 is an error of shapes, and -k over half of the rows gives, in the middle rows, the slope with the opposite sign times (number of rows - k) / k; with wrap, a width over the number of columns gives 0 everywhere.", "quantifier": "all the fields with nan, grids, widths and modes", "why_tests_cant": "all the shapes, widths and edges", "anchors": ["src/py_eddy_tracker/dataset/grid.py: RegularGridDataset.compute_finite_difference", "src/py_eddy_tracker/dataset/grid.py: RegularGridDataset.xstep", "src/py_eddy_tracker/dataset/grid.py: RegularGridDataset.ystep"]}
{"id": "C131", "title": "Name and format of the files", "statement": "write_file uses the name given with the values of path, sign_type and prod_time in place of their marks and, with zarr_flag, every \".nc\" of it changed to \".zarr\"; the format is zarr with zarr_flag or for a name which ends with \".zarr\", else netcdf. load_file reads the file in the format in which it was written exactly when zarr_flag was not used or the name ends with \".nc\" or \".zarr\": with zarr_flag and another extension the file of zarr is later read as netcdf, and directories with \".nc\" in their name are renamed too.", "quantifier": "all the models of name made of text, marks and %%, all the values, with or without zarr_flag", "why_tests_cant": "all the names", "anchors": ["src/py_eddy_tracker/observations/observation.py: EddiesObservations.write_file", "src/py_eddy_tracker/observations/observation.py: EddiesObservations.load_file"]}
{"id": "C132", "title": "Fields taken from another grid, land and the file written", "statement": "regrid gives at each place of the grid the value interpolated in the other grid, masked exactly when there is none, keeps the other fields, and is an error exactly when the other grid does not know the variable. clean_land masks exactly the values already masked and those whose nearest pixel of land is not 0 or is out of the land grid; the others are kept. Written after a regrid under the same name, the file has the field beside all the variables of the grid; under a new name the file has it under the former name and nothing under the new one, and writing fails when the grid has a variable of the former name.", "quantifier": "all the grids, fields with nan, masks of land and names of variables", "why_tests_cant": "all the fields and all the names", "anchors": ["src/py_eddy_tracker/dataset/grid.py: RegularGridDataset.regrid", "src/py_eddy_tracker/dataset/grid.py: RegularGridDataset.clean_land", "src/py_eddy_tracker/dataset/grid.py: GridDataset.write"]}
{"id": "C133", "title": "Networks or segments found in another atlas", "statement": "identify_in gives each network (or segment) of at least size_min observations, and not greater than all those of the other atlas, exactly once, with one of the other atlas which has exactly the same observations (in any order), or -1; none of the other atlas is given twice, and -1 is given only when all the equal ones are given to others. The greater ones are left out of the result. The call is an error exactly when nothing is compared, or when the sizes never decrease from a number to the next (one network alone, for instance; a number not used counts for 0) and one of these sizes is not in the other atlas which has a greater one, even if there are equal networks.", "quantifier": "all the atlases sorted by network, size_min of one or more, and all the orders given by the sorts to equal values", "why_tests_cant": "all the pairs of atlases", "anchors": ["src/py_eddy_tracker/observations/network.py: NetworkObservations.identify_in", "src/py_eddy_tracker/observations/network.py: NetworkObservations.network_size", "src/py_eddy_tracker/observations/network.py: NetworkObservations.segment_size", "src/py_eddy_tracker/observations/network.py: same_position", "src/py_eddy_tracker/observations/observation.py: EddiesObservations.align_on"]}
{"id": "C134", "title": "Dates given as text", "statement": "A date of the calendar written YYYYMMDD, YYYYMMDDHHMMSS or YYYYMMDDTHHMMSS is read as this date. A text which is accepted is a year of four digits then the numbers of the result in this order, with one or two digits each, and the result exists in the calendar; eight digits are accepted only as YYYYMMDD. But a date followed by an hour alone, or by an hour and a minute, is not refused: YYYYMMDDHH with a day of 10 to 31 is read with the first digit of the day as the day, the second as the hour and the two digits of the hour as a minute and a second, and YYYYMMDDHHMM is read with the two digits of the minute as a minute and a second. Six digits are accepted only as a month and a day of one digit each, so YYYYMM is refused but for November and December, which are read as the first and the second of January.", "quantifier": "all the dates from year 1 to 9999 and all the texts", "why_tests_cant": "all the dates and texts", "anchors": ["src/py_eddy_tracker/__init__.py: identify_time", "src/py_eddy_tracker/appli/eddies.py: browse_dataset_in"]}
{"id": "C135", "title": "Date of a file of the tracking command", "statement": "The tracking command dates a file by digits of its path found between an underscore, after a slash, and one character followed by n or z; when the path has such digits some are read. A file dir/name_YYYYMMDD.nc (or .zarr) whose last underscore is this one has this date, whatever the name and the directory. But a file given without directory, or named with the form YYYYMMDDTHHMMSS, gets no date: its item in the list of dates is not written and holds whatever the memory held, and a file named with YYYYMMDDHH gets another date.", "quantifier": "all the paths", "why_tests_cant": "all the paths", "anchors": ["src/py_eddy_tracker/appli/eddies.py: browse_dataset_in", "src/py_eddy_tracker/appli/eddies.py: track", "src/py_eddy_tracker/__init__.py: identify_time"]}
{"id": "C136", "title": "Numbers of the comparison of two atlases of networks", "statement": "The comparison of two atlases (run_compare), when it ends, gives: the number and the total size of the networks of the reference, of two observations or more, which have exactly the observations of a network of the other atlas; the number and the total size of those of them whose segments, except those longer than all the segments of the networks found in the other atlas, all have the observations of a segment of these networks; the number and the total size of the segments of the reference which have the observations of a segment of the other atlas. A network may so be counted as having the same segments though it has not; without a common network the comparison is an error.", "quantifier": "all the atlases sorted by network then segment in which no two networks and no two segments have the same observations", "why_tests_cant": "all the pairs of atlases", "anchors": ["src/py_eddy_tracker/appli/network.py: run_compare", "src/py_eddy_tracker/observations/network.py: NetworkObservations.identify_in", "src/py_eddy_tracker/observations/network.py: NetworkObservations.networks", "src/py_eddy_tracker/observations/network.py: NetworkObservations.network_size", "src/py_eddy_tracker/observations/network.py: NetworkObservations.segment_size", "src/py_eddy_tracker/observations/network.py: NetworkObservations.unique_segment_to_id"]}
{"id": "C137", "title": "Smoothing of the positions", "statement": "position_filter ends, changes only the longitude and the latitude, and gives each observation a longitude and a latitude between the least and the greatest of those of its own track (of its own segment for networks) at most the sum of the two half windows away in time. Longitudes are averaged as plain numbers: a track which crosses the cut of the longitudes is moved to the other side of the globe. The result for a track depends on its place in the dataset, since the first and the last rows of the dataset are left out of the windows of the other rows.", "quantifier": "all the datasets with tracks (or segments) stored one after the other and time not decreasing in each, and all the half windows", "why_tests_cant": "all the tracks and half windows", "anchors": ["src/py_eddy_tracker/observations/tracking.py: TrackEddiesObservations.position_filter", "src/py_eddy_tracker/observations/tracking.py: TrackEddiesObservations.median_filter", "src/py_eddy_tracker/observations/tracking.py: TrackEddiesObservations.loess_filter", "src/py_eddy_tracker/observations/network.py: NetworkObservations.position_filter", "src/py_eddy_tracker/observations/network.py: NetworkObservations.median_filter", "src/py_eddy_tracker/observations/network.py: NetworkObservations.loess_filter"]}
{"id": "C138", "title": "Relatives of the segments of an event", "statement": "find_segments_relative gives exactly the rows, in the order of the dataset and with their links when both ends are given, of the segments reached by at most the number of events asked for from the segment of the observation or, when it is given, from that of the stopped observation. A stopped observation of another network is not refused: the segment with the same number in the network of the first observation is taken instead.", "quantifier": "all the networks sorted with links inside each network, all the observations, and orders below 65535", "why_tests_cant": "all the networks and observations", "anchors": ["src/py_eddy_tracker/observations/network.py: NetworkObservations.find_segments_relative", "src/py_eddy_tracker/observations/network.py: NetworkObservations.network", "src/py_eddy_tracker/observations/network.py: NetworkObservations.relatives"]}
{"id": "C139", "title": "First come first served association", "statement": "The association row by row with one link per target (multiple_link false, the default) returns, for every matrix of costs with a row and a column, exactly the links of the rule: rows in order, each row takes its cheapest allowed target (the first on equal costs) among those no earlier row took. So a link is always allowed, an observation and a target have at most one link, and an allowed link is left out only when its row has another one or its target was taken earlier. The result depends on the order of the observations. A matrix with no row or no column is an error.", "quantifier": "all the matrices of costs, of any size, with any set of allowed links", "why_tests_cant": "all the matrices", "anchors": ["src/py_eddy_tracker/observations/observation.py: EddiesObservations.solve_first"]}
{"id": "C140", "title": "What an animation of an atlas shows", "statement": "Whatever the keys pressed and their order, each drawing of an animation has one line width per contour worked out from the date of this very contour, one colour per contour taken from the same observation, the labels of exactly the observations of the date shown and the contours of all of them. Without a key it shows the dates one day after another from the day after the first one to the first one after the last one; each drawing shows the contours of the date and those of the last nb_step days which had observations, which are the nb_step days before when every day has some, with widths between 0 and 2.5. Days without observations make contours stay longer, with negative widths. The observations of the first date are never shown unless the left key is used, and a film leaves out the last date. The left key shows the day before when both days have observations; after a day without observations it takes away one day too many, and without colours it is an error.", "quantifier": "all the atlases, all the sequences of keys and passes of the display loop, with or without endless loop", "why_tests_cant": "all the schedules of keys and passes", "anchors": ["src/py_eddy_tracker/appli/gui.py: Anim.update", "src/py_eddy_tracker/appli/gui.py: Anim.show", "src/py_eddy_tracker/appli/gui.py: Anim.keyboard", "src/py_eddy_tracker/appli/gui.py: Anim.func_animation"]}
{"id": "C141", "title": "What the interactive viewer shows", "statement": "Whatever the keys, the moves of the wheel and of the pointer, the drags of the time line, the pans and the changes of size, the map shows for each dataset exactly the observations of the date of the viewer strictly inside the box the map had at the last change of date, with their contours, the positions of their tracks up to the date and from the date on, cut between tracks; a pan alone draws nothing anew. The box after a pan or a change of size has the ratio of the axes and the same centre and contains the box before. Nothing fails when the datasets are made of tracks. With at most 50 eddies all have their number written; with more, those above a threshold, at least 50, fewer than 50 of them strictly above the threshold. The pointer over a contour gives the right observation and its whole track when contours have 50 points; with any other number of points and two contours drawn some point gives another observation or an error. The note beside the pointer is on the figure exactly when the last dataset is under the pointer, so it is hidden when only another dataset is. The dates of the viewer bound all the dates, but the last one is never before 1950-01-01.", "quantifier": "all the datasets made of tracks, all the sequences of events, all the boxes", "why_tests_cant": "all the histories of events", "anchors": ["src/py_eddy_tracker/gui.py: GUI.update", "src/py_eddy_tracker/gui.py: GUI.indexs", "src/py_eddy_tracker/gui.py: GUI.move", "src/py_eddy_tracker/gui.py: GUI.get_infos", "src/py_eddy_tracker/gui.py: GUI.keyboard", "src/py_eddy_tracker/gui.py: GUI.release", "src/py_eddy_tracker/gui.py: GUI.scroll", "src/py_eddy_tracker/gui.py: GUI.set_initial_values", "src/py_eddy_tracker/gui.py: GUIAxes.end_pan"]}
{"id": "C142", "title": "Files and table of a quick comparison of identifications", "statement": "When the names of the files compared stay different once their slashes are replaced and hold no percent sign, the comparison with an output folder writes for each of them sixteen files, which hold exactly the observations of each of the eight families of the file and of the reference, and changes no other file. Two names which differ only by a slash against an underscore share a folder: the files of the second one replace those of the first one. A percent sign in a name is an error. In the table, in numbers or in areas, the percentages of the columns nomatch, low, intermediate, high and multi_match make 100 and those of parent, twin and complex make the one of multi_match.", "quantifier": "all the names of files, all the datasets, all the links between them, all the files already there", "why_tests_cant": "all the names and all the datasets", "anchors": ["src/py_eddy_tracker/appli/eddies.py: quick_compare", "src/py_eddy_tracker/appli/eddies.py: run_compare", "src/py_eddy_tracker/appli/eddies.py: display_compare", "src/py_eddy_tracker/appli/eddies.py: get_group"]}
{"id": "C143", "title": "Boxes of the low pass filter of a curvilinear grid", "statement": "Before it filters a curvilinear grid, the low pass filter averages its nodes in the boxes of a regular grid whose step is the cut-off over 111 and over the factor. The boxes begin at the lowest longitude and latitude of the nodes; they reach the highest longitude, and the highest latitude when one more step does not pass 89; else they end less than one step below 89. No position is in two boxes, every node up to the end of the last row is in one. The value of a box is the mean of the nodes it holds which are not masked, so between the smallest and the largest of them, and a box without such a node is masked. Nodes near the pole which pass the last row are left out, though they are not masked: their value changes nothing.", "quantifier": "all the positions and values of nodes, all masks, all positive cut-offs and factors", "why_tests_cant": "all the grids", "anchors": ["src/py_eddy_tracker/dataset/grid.py: UnRegularGridDataset._low_filter", "src/py_eddy_tracker/dataset/grid.py: UnRegularGridDataset.bounds"]}
{"id": "C144", "title": "From the files of identifications to the networks", "statement": "EddyNetworkGroup followed by EddyNetworkBuildPath, on files of identifications in time order with at least two dates, ends and gives a well formed network. Each observation of the files is in it exactly once with its date and its fields. Two observations are in the same network, other than 0, if and only if a chain of observations found to overlap, at most the first window of files apart, joins them; network 0 holds exactly those found to overlap with none. Two rows linked as previous and next overlap, with a positive cost.", "quantifier": "all the files, all outcomes of the comparisons of contours, all windows of the two commands, all orders the sort may give to equal rows, all roundings of the costs", "why_tests_cant": "all the histories of files", "anchors": ["src/py_eddy_tracker/appli/network.py: build_network", "src/py_eddy_tracker/appli/network.py: divide_network", "src/py_eddy_tracker/observations/network.py: Network.group_observations", "src/py_eddy_tracker/observations/network.py: Network.build_dataset", "src/py_eddy_tracker/observations/network.py: NetworkObservations.from_split_network", "src/py_eddy_tracker/observations/tracking.py: TrackEddiesObservations.split_network"]}
{"id": "C145", "title": "Spectra of a regular grid", "statement": "With positive steps, an area of two columns and two rows or more, and a row whose spectrum holds no nan, spectrum_lonlat ends. Along the latitudes it gives the mean of the spectra of the columns which hold no nan, value by value, and a nan when there is none, at the wavelengths of these spectra. Along the longitudes the frequencies are even from 0 to the lowest of the last frequencies of the rows kept, so none is outside of the spectrum of a row, and the power is the mean of what each of these rows has there, on the line between two of its frequencies. The column and the row of the upper corner are not in the area. When each row has a nan, as it does when one column of the area holds nan only, the call fails whatever the other columns hold. A grid divided by itself with the default scaling gives 1 wherever the quotient is a number; with another scaling it does not, since the reference is always computed with the default one. What is stored under the mask counts. A reference of another step divides powers of other wavelengths.", "quantifier": "all the grids, areas, steps, masks, nan, all estimators of power which give increasing frequencies from 0 that depend on the size of the series", "why_tests_cant": "all the grids and areas", "anchors": ["src/py_eddy_tracker/dataset/grid.py: RegularGridDataset.spectrum_lonlat", "src/py_eddy_tracker/dataset/grid.py: RegularGridDataset.nearest_grd_indice"]}
{"id": "C146", "title": "The file of correspondences", "statement": "Correspondences between files where each step has a link are saved, and loaded again with the same links in the same order, each value in its field, the same number of virtual observations, and a next number just above the highest one. But the names of the files are not kept: each is loaded as \"In memory file\", whatever was given. So two files of correspondences are never joined, since every name is equal to every other and more than one common file is found. A run where a step has no link is saved but can never be loaded, and a run without any link cannot be saved. When correspondences are joined in memory and a step of the second has more links than all those of the first, the outcome cannot be saved. The indices of a link are those of the observations if and only if they are below 65536.", "quantifier": "all the runs, numbers of files, links and values within the types of the file", "why_tests_cant": "all the runs and all the pairs of runs", "anchors": ["src/py_eddy_tracker/tracking.py: Correspondances.to_netcdf", "src/py_eddy_tracker/tracking.py: Correspondances.from_netcdf", "src/py_eddy_tracker/tracking.py: Correspondances.append", "src/py_eddy_tracker/tracking.py: Correspondances.merge_correspondance", "src/py_eddy_tracker/tracking.py: Correspondances.store_correspondance"]}
{"id": "C147", "title": "The command of identification", "statement": "EddyIdentification detects on the height of the file at the indices asked: the low pass filter of the first wavelength is applied when two are given, then the low pass part of the second one is taken off; a wavelength of 0 is no filter, and one value is the second one. The speeds are never filtered: they are those of the file, or, when both are None, the gradients of the height as it was before any filter. A dimension which is not a coordinate and is not named is read at 0, a name which the variable has not is not looked at, and the last value of a name is kept; a word without exactly one equal sign is refused. Any other count of wavelengths, or of pixel limits, is an error. When one speed only is None the command fails. With --unregular it fails unless the wavelength is 0 and the speeds are in the file, since only regular grids have these filters and these gradients. A height named u or v is replaced by the speed when the speeds are asked of it.", "quantifier": "all the files, names, indices, wavelengths, orders, filters, gradients and detections", "why_tests_cant": "all the files and options", "anchors": ["src/py_eddy_tracker/appli/grid.py: eddy_id", "src/py_eddy_tracker/appli/grid.py: identification", "src/py_eddy_tracker/appli/grid.py: DictAction.__call__", "src/py_eddy_tracker/dataset/grid.py: GridDataset.grid", "src/py_eddy_tracker/dataset/grid.py: RegularGridDataset.add_uv"]}
{"id": "C148", "title": "Resuming a tracking from its file", "statement": "A tracking which is stopped, written to a file and resumed from it gives the links and the track numbers of the tracking without stop as soon as the association does not tell an eddy waited for from what the file gives back of it, above all when each is given back as it was. The file gives back the same moves, the same amplitude and radius when they come from files of identifications and at most half a step of the file otherwise (0.05 mm, 25 m), but the positions in single precision, so the positions looked at later are off by that difference. This is enough for other links: eddies whose positions are all exact in single precision are linked in the resumed run and not in the run without stop.", "quantifier": "all the dates, counts of virtual eddies, associations, extrapolations, conversions to single precision and files", "why_tests_cant": "all the histories and stopping points", "anchors": ["src/py_eddy_tracker/tracking.py: Correspondances.load_state", "src/py_eddy_tracker/tracking.py: Correspondances.to_netcdf", "src/py_eddy_tracker/tracking.py: Correspondances.track", "src/py_eddy_tracker/observations/observation.py: EddiesObservations.from_netcdf", "src/py_eddy_tracker/observations/observation.py: EddiesObservations.to_netcdf", "src/py_eddy_tracker/observations/observation.py: EddiesObservations.create_variable"]}
{"id": "C149", "title": "Configuration of the tracking command and continuation of a file", "statement": "EddyTracking takes the files of correspondences of its command line, otherwise those of the section PATHS, otherwise none to continue and the default name; VIRTUAL_LENGTH_MAX is 0 and TRACK_DURATION_MIN 10 when they are not given, numbers being cut towards 0; FILES_PATTERN is required; the directory SAVE_DIR is made when it does not exist, even when the command fails afterwards, but not the directories above it. A command which fails leaves the files of correspondences as they were, so a null name or a name which cannot be completed loses the run, and one which succeeds changes only the file of its output, where the links are. A file to continue is taken exactly when it is there, has links at each step, the same count of virtual eddies and the same class. Its links are then kept as they are, and one step is added for each file of the list after the number of files it was made with: what is in the files before the last two of these is not looked at, and a shorter list is an error. The same command continued with more files gives the links of the command on all the files. But neither the options of the class nor the names of the files are compared: with other options the links are those of neither, and when the first files have been removed the links are put at the wrong dates and join eddies of different tracks, without any error.", "quantifier": "all the configurations, command lines, directories, files, classes, associations and files to continue", "why_tests_cant": "all the configurations and histories of runs", "anchors": ["src/py_eddy_tracker/appli/eddies.py: eddies_tracking", "src/py_eddy_tracker/appli/eddies.py: track", "src/py_eddy_tracker/tracking.py: Correspondances.__init__", "src/py_eddy_tracker/tracking.py: Correspondances.load_compatible", "src/py_eddy_tracker/tracking.py: Correspondances.load_state", "src/py_eddy_tracker/tracking.py: Correspondances.save"]}
{"id": "C150", "title": "Timeline of a network", "statement": "On a network sorted by segment with links inside, display_timeline draws one line for each segment, through the dates of its observations, at the number of the segment, at the mean of the field on the segment or, with the method \"all\", at the values of the field, times the factor; event_timeline draws exactly one line for each segment whose last observation has a next one, from that observation to it, and one for each segment whose first observation has a previous one, from that observation to it, at the same heights and with the colour of the line of the segment, and puts one mark at the start of each of these lines, the series of marks being returned when they are not empty, splitting first. Colours turn with the segments or follow their numbers; another mode is an error. Several networks are an error. But a field given as an array with the method \"all\" is an error as soon as one segment splits from another, though the lines of the segments alone are drawn.", "quantifier": "all the networks sorted by segment, fields, arrays, factors, numbers of colours and modes", "why_tests_cant": "any number of segments and any links; tests draw one network", "anchors": ["src/py_eddy_tracker/observations/network.py: NetworkObservations.event_timeline", "src/py_eddy_tracker/observations/network.py: NetworkObservations.display_timeline", "src/py_eddy_tracker/observations/network.py: NetworkObservations.only_one_network"]}
{"id": "C151", "title": "Command which merges files of tracks", "statement": "The command MergeEddies succeeds when all its files have rows, the same arrays with the same number of samples and the same other variables which are not basic ones, in the same order, among those asked for (those of the first file by default); with files of different kinds, or one without rows, it fails. Each field of the output has the rows of the files in order, and two rows have the same number of track exactly when they come from the same file with the same number. The sign of the output is the one of the first file. With the variable of rotation, the rows of a file have its rotation: the type of its first row if the file has this variable and it is read, otherwise its title, otherwise its attribute, and cyclonic when there is none. Values are kept when the files are packed like the software does. But a basic variable which is missing in a later file is filled with zeros and one which is missing in the first file is lost, without any error; integers of a file packed otherwise are kept, so its values change; a file which has both types of rotation gets the type of its first row on all its rows when the rotation is asked for; a list of variables without the number of the track makes one track of each file.", "quantifier": "all the lists of files, variables, types of rotation, packings and numbers of tracks", "why_tests_cant": "all the lists of files", "anchors": ["src/py_eddy_tracker/appli/eddies.py: merge_eddies", "src/py_eddy_tracker/observations/tracking.py: TrackEddiesObservations.concatenate", "src/py_eddy_tracker/observations/observation.py: EddiesObservations.add_rotation_type", "src/py_eddy_tracker/observations/observation.py: EddiesObservations.load_from_netcdf", "src/py_eddy_tracker/observations/observation.py: EddiesObservations.concatenate"]}
{"id": "C152", "title": "Names of the variables and units of a loaded file", "statement": "Every name which the table of variables gives to a field, the current one or an older one, leads to this field and to no other; no name in the files is the name of another field, and two fields are never written under the same name. eddies[name] and eddies.name give the column of the field for each of its names when the dataset has it, and never a column when it does not; a name of no field gives the error of the class. Loading a netcdf file gives each field the values of the last variable asked which has one of its names, multiplied by the factor between the units of the file and the ones of the software (1 in raw mode, when a unit is missing, when they are written the same way or when one of them is not understood); a basic field which no variable gives is full of zeros, and there is no other field. The load succeeds when every variable asked and every included name is known, the rows have the length of the first dimension found among obs, Nobs, observation and i, and the units are of the same nature; it fails when a name is unknown, no such dimension exists or the units are of another nature. A dataset written under its names and loaded has its values back in any order of the variables. But hasattr raises for the names of a field which the dataset does not have; an included variable given by another name of the field than the one in the file gives zeros without any error; and dates counted from another day than 1950-01-01, whose units the library of units does not read, are kept as they are.", "quantifier": "all the names, datasets, files, orders of variables, lists of included and removed names, and units", "why_tests_cant": "all the names and files", "anchors": ["src/py_eddy_tracker/__init__.py: VAR_DESCR_inv", "src/py_eddy_tracker/observations/observation.py: EddiesObservations.__getitem__", "src/py_eddy_tracker/observations/observation.py: EddiesObservations.__getattr__", "src/py_eddy_tracker/observations/observation.py: EddiesObservations.obs_dimension", "src/py_eddy_tracker/observations/observation.py: EddiesObservations.compare_units", "src/py_eddy_tracker/observations/observation.py: EddiesObservations.build_var_list", "src/py_eddy_tracker/observations/observation.py: EddiesObservations.load_from_netcdf", "src/py_eddy_tracker/observations/observation.py: EddiesObservations.to_netcdf"]}
{"id": "C153", "title": "Summary of a dataset of trajectories", "statement": "The summary displayed for a dataset of trajectories gives the number of different tracks, the number of observations of the shorter and of the longer track, and the number of filled observations. When the tracks are stored one after the other and numbered from 0 without a gap, the distances by day are the steps between two successive observations of a same track, in kilometres, and the distances by track are the lengths of the paths of the tracks, one for each track; the means are those of these lists. But with an unused number below the greatest one, the last observation but one is taken for the end of a track, so that the mean by track has one distance too many; and the summary of a dataset without rows, or of one row whose number is not 0, raises.", "quantifier": "all the datasets of trajectories and all the distances", "why_tests_cant": "all the datasets and numberings", "anchors": ["src/py_eddy_tracker/observations/tracking.py: TrackEddiesObservations.__repr__", "src/py_eddy_tracker/observations/tracking.py: TrackEddiesObservations.nb_tracks", "src/py_eddy_tracker/observations/tracking.py: TrackEddiesObservations.nb_obs_by_track", "src/py_eddy_tracker/observations/tracking.py: TrackEddiesObservations.index_from_track", "src/py_eddy_tracker/observations/tracking.py: TrackEddiesObservations.distance_to_next", "src/py_eddy_tracker/generic.py: cumsum_by_track"]}
{"id": "C154", "title": "Datasets as objects: what is shared, what is kept, what is equal", "statement": "In any program which loads, copies, appends and changes datasets and never appends to one without rows, an operation changes the rows of no other dataset than the one it is done on, so a copy and its original live apart. Appending changes the object itself, which then has its rows followed by those of the other one, and never the other one. But appending to a dataset without rows makes both share one array: a row changed later in one is changed in the other. The period is the first and last time of the rows when it is asked for the first time, and the number of days follows from it; after that it never changes, so it is wrong once later rows are appended. Two datasets are equal exactly when they have the same sign and the same values row by row, none of them nan; so a dataset with a nan is not equal to itself nor to its copy.", "quantifier": "all the programs (sequences of operations on any number of datasets), all the rows and times", "why_tests_cant": "all the histories of operations and all the sharing they produce", "anchors": ["src/py_eddy_tracker/observations/observation.py: EddiesObservations.insert_observations", "src/py_eddy_tracker/observations/observation.py: EddiesObservations.append", "src/py_eddy_tracker/observations/observation.py: EddiesObservations.__add__", "src/py_eddy_tracker/observations/observation.py: EddiesObservations.__copy__", "src/py_eddy_tracker/observations/observation.py: EddiesObservations.copy", "src/py_eddy_tracker/observations/observation.py: EddiesObservations.period", "src/py_eddy_tracker/observations/observation.py: EddiesObservations.nb_days", "src/py_eddy_tracker/observations/observation.py: EddiesObservations.__eq__"]}
{"id": "C155", "title": "Band filter of a grid", "statement": "The band filter of a regular grid gives at each cell the value of the filter at the short wavelength minus the filter at the long wavelength of that filtered grid; a cell masked in one of the two is masked. The band of a constant field is zero wherever it has a value, and adding the same value to all the cells does not change the band, whatever the masks, the kernels, the turn of the longitudes and the extension asked. With kernels without negative weights and with a weight at their centre, no filtered cell comes from a division by zero.", "quantifier": "all the grids, masks, latitudes and families of kernels of odd size", "why_tests_cant": "all the sizes, masks and kernels", "anchors": ["src/py_eddy_tracker/dataset/grid.py: RegularGridDataset.bessel_band_filter", "src/py_eddy_tracker/dataset/grid.py: RegularGridDataset.convolve_filter_with_dynamic_kernel"]}
{"id": "C156", "title": "Summary of an atlas of networks", "statement": "The summary displayed for a sorted atlas of networks counts each network and each segment once, and all the observations; the biggest size is that of one of the networks and none is larger; the networks of more than 50000 observations are counted exactly, with the observations they hold; the trash is the number of observations of network 0, zero when there is no such network. The rates are these numbers by year of 365.25 days. But network 0 is counted with the networks, and is shown as the biggest one when it has the most observations; with all the observations at one date there is no rate, and the summary of an atlas without rows raises.", "quantifier": "all the sorted atlases and all the limits of size", "why_tests_cant": "all the sizes and numberings", "anchors": ["src/py_eddy_tracker/observations/network.py: NetworkObservations.__repr__", "src/py_eddy_tracker/observations/network.py: NetworkObservations.ref_index", "src/py_eddy_tracker/observations/network.py: NetworkObservations.network_size"]}
{"id": "C157", "title": "Datasets written in an open file", "statement": "A dataset written in a new file gives a file whose dimensions are its number of rows and of samples, whose attributes are its lists of extra and array variables, and whose variables are its fields, each once, in the order of their names, with their values; the chunks of a variable of two dimensions hold at most 400000 values and as many rows as they can, and at least one exactly when a row holds no more than 400000 values and there are rows. Whatever is written after in the same file, accepted or refused, the dimensions keep their sizes and the variables already there stay as they are. A dataset is accepted in the same file exactly when it has the same number of rows, the same number of samples if it has any, and names which are neither in the file nor given twice. But a dataset refused for its number of samples has already replaced the list of extra variables of the file, which then does not describe its variables.", "quantifier": "all the datasets, all the sequences of writings and all the states of the file", "why_tests_cant": "all the sizes and all the sequences of writings", "anchors": ["src/py_eddy_tracker/observations/observation.py: EddiesObservations.to_netcdf", "src/py_eddy_tracker/observations/observation.py: EddiesObservations.netcdf_create_dimensions", "src/py_eddy_tracker/observations/observation.py: EddiesObservations.create_variable"]}
{"id": "C158", "title": "Copies of a table of correspondences are independent", "statement": "The copy of a table of correspondences holds the same arrays as the table, with the observations of its tracks counted anew. Yet any copies and any selections of long or short tracks in other tables, in any number and order, leave a table as it is: its correspondences, its counts and its number of tracks. A selection in a table gives what it gives on the values of this table alone, and fails exactly when it fails on them. So the command which selects the short tracks in a copy and the long ones in the table itself gets both selections of the whole table, whatever the order in which they are done.", "quantifier": "all the tables, shared arrays and sequences of copies and selections", "why_tests_cant": "all the sharings and all the sequences of operations", "anchors": ["src/py_eddy_tracker/tracking.py: Correspondances._copy", "src/py_eddy_tracker/tracking.py: Correspondances.longer_than", "src/py_eddy_tracker/tracking.py: Correspondances.shorter_than"]}
{"id": "C159", "title": "A dataset written and read back", "statement": "A dataset written in a new file and read back whole, as the virtual observations are when a tracking is resumed, keeps its number of rows and of samples, its lists of extra and array variables, and each of its columns, with no other field than those of its class and of its lists; a field of the class which it did not have comes back with zeros, without any error. A variable which is neither a field of the class nor in the lists makes the reading fail. But the text of the extra variables is left out when it has one letter: a dataset whose only extra variable is n is written and cannot be read back.", "quantifier": "all the datasets, classes and files", "why_tests_cant": "all the sets of fields and all the values", "anchors": ["src/py_eddy_tracker/observations/observation.py: EddiesObservations.from_netcdf", "src/py_eddy_tracker/observations/observation.py: EddiesObservations.elements", "src/py_eddy_tracker/observations/observation.py: EddiesObservations.dtype", "src/py_eddy_tracker/observations/observation.py: EddiesObservations.to_netcdf"]}
