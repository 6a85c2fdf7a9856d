{
 "claims": [
  {
   "property": "C01",
   "status": "proved",
   "theorems": [
    "C01_wkb_roundtrip"
   ],
   "note": "all kinds, any nesting, both byte orders, bit-exact; hypotheses: counts fit a uint32, rings open, first ring point not NaN"
  },
  {
   "property": "C02",
   "status": "proved",
   "theorems": [
    "C02_wkb_exact_end",
    "C02_norm_is_identity_on_open",
    "C02_wkb_truncation",
    "C02_wkb_decode_total"
   ],
   "note": "exact end for any suffix; every proper prefix is io.EOF/ErrUnexpectedEOF; decoder total on arbitrary bytes"
  },
  {
   "property": "C03",
   "status": "proved",
   "theorems": [
    "C03_wkb_encoder_layout",
    "C03_wkb_written_ring_closed",
    "C03_wkb_closed_or_open"
   ],
   "note": "encoder output equals an independently written OGC layout with closed rings"
  },
  {
   "property": "C04",
   "status": "proved",
   "theorems": [
    "C04_wkb_encode_fails_iff_unknown"
   ],
   "note": "iff over arbitrary trees"
  },
  {
   "property": "C05",
   "status": "proved",
   "theorems": [
    "C05_header_roundtrip",
    "C05_new_header_iff",
    "C05_header_layout",
    "C05_nil_header_is_an_error"
   ],
   "note": "all envelopes, flags, byte orders, SRS ids; independent layout; any trailing bytes"
  },
  {
   "property": "C06",
   "status": "partial",
   "theorems": [
    "C06_decode_header_exact",
    "C06_magic_checked_refuted"
   ],
   "note": "REFUTED as stated: with envelope type 0 the magic number is never checked (C06_magic_checked_refuted); exact outcome of the decoder on every byte string is proved, and for every other envelope type the magic is checked"
  },
  {
   "property": "C07",
   "status": "proved",
   "theorems": [
    "C07_blob_roundtrip",
    "C07_decode_never_panics",
    "C07_new_binary_never_panics"
   ],
   "note": "all kinds; envelope equals the extent or NaN when every coordinate pair has a NaN; decoding never panics on any bytes"
  },
  {
   "property": "C08",
   "status": "proved",
   "theorems": [
    "C08_zigzag_roundtrip_iff",
    "C08_zigzag_onto",
    "C08_zigzag_value"
   ],
   "note": "iff int32; every uint32 is an encoding"
  },
  {
   "property": "C09",
   "status": "proved",
   "theorems": [
    "C09_command_roundtrip",
    "C09_command_split"
   ],
   "note": "all ids and counts below 2^29"
  },
  {
   "property": "C10",
   "status": "proved",
   "theorems": [
    "C10_point_roundtrip",
    "C10_multipoint_roundtrip",
    "C10_linestring_roundtrip",
    "C10_multilinestring_roundtrip"
   ],
   "note": "all point and line geometries whose steps fit 32 bits; lines need two points, multi-geometries with one member decode to the member"
  },
  {
   "property": "C11",
   "status": "partial",
   "theorems": [
    "C11_polygon_roundtrip",
    "C11_multipolygon_roundtrip",
    "C11_flat_outer_ring_refuted"
   ],
   "note": "round trip proved for every polygon whose outer ring has area; REFUTED for a zero-area outer ring with holes (C11_flat_outer_ring_refuted)"
  },
  {
   "property": "C12",
   "status": "partial",
   "theorems": [
    "C12_tags_lossless",
    "C12_tables_distinct",
    "C12_tables_tight",
    "C12_tables_built_iff",
    "C12_nan_refuted"
   ],
   "note": "proved for all maps, iteration orders and supported values except NaN; REFUTED for NaN attributes (the feature cannot be encoded)"
  },
  {
   "property": "C13",
   "status": "proved",
   "theorems": [
    "C13_names_distinct",
    "C13_add_layers",
    "C13_decoded_tile_refuted"
   ],
   "note": "all histories of AddLayers from the empty tile, exact effect of one call; tiles made by the decoder are not checked (C13_decoded_tile_refuted)"
  },
  {
   "property": "C14",
   "status": "partial",
   "theorems": [
    "C14_features_after",
    "C14_remove_refuted",
    "C14_remove_exact",
    "C14_kept_list_right"
   ],
   "note": "REFUTED: RemoveFeature computes the right list and drops it, so it never removes anything"
  },
  {
   "property": "C15",
   "status": "partial",
   "theorems": [
    "C15_points_never_panic",
    "C15_panic_cases",
    "C15_never_panics_refuted",
    "C15_terminates"
   ],
   "note": "REFUTED: seven crashing inputs; points never crash; every crashing input is characterised (C15_panic_cases)"
  },
  {
   "property": "C16",
   "status": "proved",
   "theorems": [
    "C16_new_extent_least",
    "C16_new_extent_nil_iff"
   ],
   "note": "bit-level floats, infinities included, NaN-free points"
  },
  {
   "property": "C17",
   "status": "proved",
   "theorems": [
    "C17_grow_least",
    "C17_grow_order_independent",
    "C17_grow_nil"
   ],
   "note": "all histories of Add/AddPoints/AddPointers/AddGeometry; least upper bound, and bit-exact independence of order and repetition"
  },
  {
   "property": "C18",
   "status": "proved",
   "theorems": [
    "C18_contains_is_inclusion",
    "C18_contains_point",
    "C18_contains_line",
    "C18_contains_refl",
    "C18_contains_trans",
    "C18_contains_antisym",
    "C18_nil_contains_all"
   ],
   "note": "inclusion iff for non-empty argument; order laws; nil"
  },
  {
   "property": "C19",
   "status": "proved",
   "theorems": [
    "C19_intersect_members",
    "C19_intersect_false_iff",
    "C19_intersect_comm"
   ],
   "note": "membership iff; false iff no common interior point over the reals (infinite sides allowed); commutative up to float equality"
  },
  {
   "property": "C20",
   "status": "partial",
   "theorems": [
    "C20_contains_geom_refuted",
    "C20_contains_geom_exact"
   ],
   "note": "REFUTED as stated: ContainsGeom grows a zero extent, so the origin must be contained too (C20_contains_geom_refuted); the exact behaviour of the code is proved for every extent and geometry (C20_contains_geom_exact)"
  },
  {
   "property": "C21",
   "status": "proved",
   "theorems": [
    "C21_extent_from_geometry",
    "C21_extent_from_geometry_nil_iff"
   ],
   "note": "sides equal as float64 values (signs of zero may differ); nil iff no coordinates"
  },
  {
   "property": "C22",
   "status": "proved",
   "theorems": [
    "C22_scale_by",
    "C22_expand_by",
    "C22_expand_by_contains",
    "C22_scale_by_infinite_refuted"
   ],
   "note": "IEEE rounding and overflow included, finite sides and factors; for infinite sides the claim is refuted (NaN sides)"
  },
  {
   "property": "C23",
   "status": "proved",
   "theorems": [
    "C23_get_coordinates",
    "C23_get_coordinates_error_iff",
    "C23_extract_lines",
    "C23_extract_lines_error_iff"
   ],
   "note": "all trees; iff for the error"
  },
  {
   "property": "C24",
   "status": "proved",
   "theorems": [
    "C24_clone",
    "C24_apply_to_points",
    "C24_run_is_deterministic",
    "C24_apply_rejects_other_kinds"
   ],
   "note": "any stateful f; clone has fresh pairwise distinct storage; Collections are rejected by both functions"
  },
  {
   "property": "C25",
   "status": "proved",
   "theorems": [
    "C25_linestring_as_segments",
    "C25_multilinestring_as_segments",
    "C25_polygon_as_segments",
    "C25_multipolygon_as_segments"
   ],
   "note": "LineString, MultiLineString, Polygon, MultiPolygon"
  },
  {
   "property": "C26",
   "status": "partial",
   "theorems": [
    "C26_reflexive",
    "C26_symmetric",
    "C26_infinite",
    "C26_same_value",
    "C26_same_sign",
    "C26_opposite_sign",
    "C26_equal_is_close",
    "C26_close_is_equal",
    "C26_within_tolerance_refuted",
    "C26_slice_order"
   ],
   "note": "reflexive, symmetric, infinities, exact characterisation by distance in floats and by relative difference proved for all float64; 'a difference below the tolerance compares equal' is REFUTED (the tolerance is relative away from zero)"
  },
  {
   "property": "C27",
   "status": "proved",
   "theorems": [
    "C27_strict_order",
    "C27_sorting_unique"
   ],
   "note": "all points without NaN"
  },
  {
   "property": "C28",
   "status": "proved",
   "theorems": [
    "C28_rotate_to_index",
    "C28_rotate_out_of_range",
    "C28_leftmost_first",
    "C28_leftmost_is_minimum"
   ],
   "note": "all rings and indexes; indexes out of range panic"
  },
  {
   "property": "C29",
   "status": "partial",
   "theorems": [
    "C29_reflexive",
    "C29_symmetric_partial",
    "C29_symmetry_refuted",
    "C29_multiline_exact",
    "C29_multipoint_any_order",
    "C29_any_start_partial",
    "C29_any_start_refuted",
    "C29_same_kind",
    "C29_multipoint_matching",
    "C29_linestring_matching",
    "C29_polygon_matching",
    "C29_polygon_extents",
    "C29_multipolygon_matching",
    "C29_collection_exact",
    "C29_arguments_reordered",
    "C29_arguments_unchanged_refuted"
   ],
   "note": "reflexive for all geometries; matching of parts; REFUTED: MultiLineString comparison is not symmetric, starting point matters when two vertices are leftmost, comparing polygons reorders the caller's rings"
  },
  {
   "property": "C30",
   "status": "partial",
   "theorems": [
    "C30_returned_was_installed_partial",
    "C30_installed",
    "C30_last_store",
    "C30_without_overlap_partial",
    "C30_handed_to_one_caller_refuted"
   ],
   "note": "REFUTED: SetDefault is a load and a store, overlapping calls are handed the same comparator; what holds for every schedule is proved"
  },
  {
   "property": "C31",
   "status": "partial",
   "theorems": [
    "C31_orientation_is_area_sign",
    "C31_reversing_flips",
    "C31_starting_point_irrelevant",
    "C31_translation_invariant",
    "C31_mirroring_flips",
    "C31_axis_flips",
    "C31_short_is_colinear",
    "C31_integer_rings",
    "C31_starting_point_rounding_refuted",
    "C31_reversing_rounding_refuted"
   ],
   "note": "proved for every ring on a binary grid with room in 53 bits (all integer tile coordinates); for arbitrary float64 rings invariance is REFUTED by rounding counterexamples"
  },
  {
   "property": "C32",
   "status": "partial",
   "theorems": [
    "C32_rectified_windings",
    "C32_rings_kept",
    "C32_nil_iff",
    "C32_argument_afterwards",
    "C32_rounding_refuted"
   ],
   "note": "kept rings, nil result and effect on the argument proved for all float64 rings; winding of the result for all grid rings; for arbitrary float64 rings REFUTED by a rounding counterexample"
  },
  {
   "property": "C33",
   "status": "proved",
   "theorems": [
    "C33_terminates",
    "C33_keeps",
    "C33_kept_vertices",
    "C33_farthest_first",
    "C33_no_tolerance",
    "C33_no_error_without_cancel",
    "C33_error_when_cancelled",
    "C33_closed_line_collapses"
   ],
   "note": "every distance function, tolerance (NaN included) and cancellation point; subsequence, end points, tolerance, farthest-first splitting; with the default distance a closed line collapses to its first vertex (C33_closed_line_collapses)"
  },
  {
   "property": "C34",
   "status": "proved",
   "theorems": [
    "C34_structure",
    "C34_no_added_points",
    "C34_douglas_peucker",
    "C34_closed_rings_vanish"
   ],
   "note": "every simplifier, with or without state; a ring reduced to at most two points is replaced by nil; with the default Douglas-Peucker every explicitly closed ring vanishes (C34_closed_rings_vanish)"
  },
  {
   "property": "C35",
   "status": "proved",
   "theorems": [
    "C35_contents",
    "C35_kept",
    "C35_insert",
    "C35_split",
    "C35_boxes"
   ],
   "note": "every insertion history, over any stored point type; boxes for points without NaN"
  },
  {
   "property": "C36",
   "status": "partial",
   "theorems": [
    "C36_nearest_first",
    "C36_all",
    "C36_euclidean_partial",
    "C36_euclidean_refuted"
   ],
   "note": "order and completeness proved for every distance function that bounds the items of each box from below, and that EuclideanDistance (rounding and overflow included) is one when coordinate differences are zero or at least 2^-511; REFUTED below that: squares underflow and distances come out of order"
  },
  {
   "property": "C37",
   "status": "partial",
   "theorems": [
    "C37_contents",
    "C37_min_children",
    "C37_search",
    "C37_no_panic_partial",
    "C37_no_panic_refuted"
   ],
   "note": "contents, size, boxes, balance, node sizes and exact search proved for every insertion history that returns, in any dimension, MinChildren included; that Insert returns is proved for coordinates up to 2^m with d*(m+1) <= 1022 and REFUTED beyond (areas overflow, nil entry chosen)"
  },
  {
   "property": "C38",
   "status": "proved",
   "theorems": [
    "C38_exact",
    "C38_shape"
   ],
   "note": "any sort, any object list; the float computations of height and slices are arguments of the theorem: exactness for any value, balance for the paper's values"
  },
  {
   "property": "C39",
   "status": "proved",
   "theorems": [
    "C39_family",
    "C39_in_grid"
   ],
   "note": "every tile, zoom and callback, as long as columns and rows of the descendants fit in an int"
  },
  {
   "property": "C40",
   "status": "partial",
   "theorems": [
    "C40_rectangle",
    "C40_covers_columns",
    "C40_world_refuted"
   ],
   "note": "rectangle, distinctness and column coverage proved whenever the list fits the address space; REFUTED for the world at MaxZoom: the slice is larger than the address space and make panics"
  },
  {
   "property": "C41",
   "status": "proved",
   "theorems": [
    "C41_lexicographic",
    "C41_strict_total"
   ],
   "note": "every triple of tiles"
  },
  {
   "property": "C42",
   "status": "partial",
   "theorems": [
    "C42_roundtrip",
    "C42_only",
    "C42_strconv",
    "C42_error",
    "C42_exact",
    "C42_all_refuted"
   ],
   "note": "proved for every printer and parser of numbers that agree on the coordinates, and for strconv (bit exact, correctly rounded) with coordinates that print without an exponent; REFUTED outside: an exponent is printed with '+', which the decoder refuses (1e+10), and digits beyond the precision are lost"
  },
  {
   "property": "C43",
   "status": "partial",
   "theorems": [
    "C43_refuted"
   ],
   "note": "REFUTED for every empty geometry: it is written as EMPTY (or with empty parts) and the decoder refuses the text"
  },
  {
   "property": "C44",
   "status": "partial",
   "theorems": [
    "C44_feature",
    "C44_collection",
    "C44_geometry",
    "C44_refused",
    "C44_nil_refuted"
   ],
   "note": "proved at the level of JSON values for every float printer whose text reads back exactly (what strconv documents), ids and properties included; REFUTED for nil slices: they are written as null and reading them panics"
  },
  {
   "property": "C45",
   "status": "partial",
   "theorems": [
    "C45_refuted",
    "C45_effect",
    "C45_shared_refuted",
    "C45_closed",
    "C45_twice"
   ],
   "note": "REFUTED: an open ring of the caller gets an additional point, and rings cut from one array overwrite each other; the exact effect is proved"
  },
  {
   "property": "C46",
   "status": "proved",
   "theorems": [
    "C46_symmetric",
    "C46_exact",
    "C46_point",
    "C46_line_point",
    "C46_same_point"
   ],
   "note": "symmetry for all words; exactness on grids (differences up to 2^25 steps), the point for coordinates up to 2^16 steps; rounding included"
  },
  {
   "property": "C47",
   "status": "proved",
   "theorems": [
    "C47_points",
    "C47_order",
    "C47_runs",
    "C47_inside",
    "C47_part",
    "C47_exact",
    "C47_total",
    "C47_context",
    "C47_lines",
    "C47_geometry",
    "C47_universe",
    "C47_point"
   ],
   "note": "order, runs, totality and points for all words and contexts; positions for boxes and lines on a grid of up to 2^16 steps, rounding included; exactness for segments that pass no corner"
  },
  {
   "property": "C48",
   "status": "partial",
   "theorems": [
    "C48_origin_partial",
    "C48_formula",
    "C48_away_refuted",
    "C48_closed_refuted"
   ],
   "note": "REFUTED: the sum is divided by the cross product of the last side instead of the area; right for triangles that start at the origin, infinite for closed rings there, outside the bounding box elsewhere; what is computed is proved (C48_formula)"
  },
  {
   "property": "C49",
   "status": "proved",
   "theorems": [
    "C49_rot",
    "C49_algebra",
    "C49_kinds",
    "C49_rings",
    "C49_new",
    "C49_connect",
    "C49_swap"
   ],
   "note": "every history of New, EndPoints, Splice of edges of one kind, Connect (with any choice of ResolveEdge), Swap and Delete; nil edges are not modelled"
  },
  {
   "property": "C50",
   "status": "proved",
   "theorems": [
    "C50_twice",
    "C50_origins",
    "C50_faces",
    "C50_delete"
   ],
   "note": "every history, every pair of edges of one kind"
  },
  {
   "property": "C51",
   "status": "proved",
   "theorems": [
    "C51_unique"
   ],
   "note": "every interleaving of fewer than 2^64 creations"
  },
  {
   "property": "C52",
   "status": "proved",
   "theorems": [
    "C52_cut",
    "C52_total",
    "C52_bridges"
   ],
   "note": ""
  },
  {
   "property": "C53",
   "status": "proved",
   "theorems": [
    "C53_letter",
    "C53_zone",
    "C53_error"
   ],
   "note": "Float64 exactly; what happens at 84 N, next to 180 E and within 2^-43 degrees of a side is C102."
  },
  {
   "property": "C54",
   "status": "proved",
   "theorems": [
    "C54_polygons",
    "C54_new",
    "C54_ordered",
    "C54_rounding"
   ],
   "note": "Integer coordinates up to 512, where the comparators of Ring.ContainsPoint are exact; what is expected beyond is C114."
  },
  {
   "property": "C55",
   "status": "proved",
   "theorems": [
    "C55_segments",
    "C55_clipped",
    "C55_unique",
    "C55_comparators"
   ],
   "note": "Integer coordinates up to 512 and crossings at integers, where no point is rounded. The sweep, the cutting, the clip box and unique are all modelled; the result also repeats segments (C115)."
  },
  {
   "property": "C56",
   "status": "proved",
   "theorems": [
    "C56_chain"
   ],
   "note": "the positions of the points (math.Cos, math.Sin) are arbitrary"
  },
  {
   "property": "C57",
   "status": "proved",
   "theorems": [
    "C57_wkb_decode_any_layout",
    "C57_layout_inhabited",
    "C57_wkb_decode_only_layout"
   ],
   "note": "decoder against an independent relational layout with per-element byte order: accepts every well-formed file and only those"
  },
  {
   "property": "C58",
   "status": "partial",
   "theorems": [
    "C58_envelope_order_refuted",
    "C58_envelope_order_exact"
   ],
   "note": "REFUTED: the code writes minx,miny,maxx,maxy (C58_envelope_order_exact)"
  },
  {
   "property": "C59",
   "status": "partial",
   "theorems": [
    "C59_value_kept",
    "C59_int_lost_refuted"
   ],
   "note": "proved for every type but int and uint, which are REFUTED: written as empty values"
  },
  {
   "property": "C60",
   "status": "proved",
   "theorems": [
    "C60_points_layout",
    "C60_linestring_layout",
    "C60_multilinestring_layout",
    "C60_polygon_layout",
    "C60_multipolygon_layout"
   ],
   "note": "independent wire specification"
  },
  {
   "property": "C61",
   "status": "partial",
   "theorems": [
    "C61_encode_error_iff",
    "C61_encode_panic_iff",
    "C61_never_panics_refuted"
   ],
   "note": "REFUTED for panics: encoding a line without points panics, and nothing else does (C61_encode_panic_iff); errors characterised exactly"
  },
  {
   "property": "C62",
   "status": "proved",
   "theorems": [
    "C62_collection_features",
    "C62_features_are_members",
    "C62_features_encodable"
   ],
   "note": "any nesting"
  },
  {
   "property": "C63",
   "status": "partial",
   "theorems": [
    "C63_tile_roundtrip",
    "C63_attributes_refuted",
    "C63_geom_collection"
   ],
   "note": "names, extents, ids and geometries proved for all tiles and iteration orders; attributes REFUTED: the decoder never restores them"
  },
  {
   "property": "C64",
   "status": "partial",
   "theorems": [
    "C64_optional_fields_refuted",
    "C64_panic_cases"
   ],
   "note": "REFUTED: absent extent or type crashes; all crash causes characterised"
  },
  {
   "property": "C65",
   "status": "partial",
   "theorems": [
    "C65_limit",
    "C65_filters",
    "C65_abort_refuted"
   ],
   "note": "limit and non-aborting filters proved exactly; abort REFUTED: it only leaves the current leaf"
  },
  {
   "property": "C66",
   "status": "partial",
   "theorems": [
    "C66_insert_after_bulk_refuted"
   ],
   "note": "REFUTED: leaves of a bulk loaded tree share one array, the new entry overwrites the first entry of the next leaf (internal package; the library itself never inserts after bulk loading)"
  },
  {
   "property": "C67",
   "status": "partial",
   "theorems": [
    "C67_nearest",
    "C67_zero_refuted"
   ],
   "note": "proved for k >= 1 for every insertion history with finite coordinates, rounding and overflow included, distances as computed by the library; k = 0 REFUTED (panics)"
  },
  {
   "property": "C68",
   "status": "partial",
   "theorems": [
    "C68_member",
    "C68_nearest_partial",
    "C68_nearest_refuted"
   ],
   "note": "REFUTED for trees with several leaves: cancellation in the pruning bound; membership and termination proved for all trees, exactness for one leaf"
  },
  {
   "property": "C69",
   "status": "partial",
   "theorems": [
    "C69_history",
    "C69_search",
    "C69_insert_after_delete_refuted",
    "C69_min_children_refuted"
   ],
   "note": "contents, answers, exact search, balance and MaxChildren proved for every history that returns; REFUTED: an Insert after deletions can panic, and deletions can leave nodes below MinChildren"
  },
  {
   "property": "C70",
   "status": "partial",
   "theorems": [
    "C70_size",
    "C70_left_side",
    "C70_roundtrip",
    "C70_column_partial",
    "C70_left",
    "C70_monotone",
    "C70_outside",
    "C70_rows",
    "C70_bound_partial",
    "C70_in_grid_refuted"
   ],
   "note": "round trip, exactness of sides, monotonicity and column up to 2^-18 of a tile proved, rounding included; REFUTED just below 180 degrees (and left of every right side by 1e-6 pixels): the column is 2^z, outside the grid"
  },
  {
   "property": "C71",
   "status": "partial",
   "theorems": [
    "C71_exact",
    "C71_contains_refuted"
   ],
   "note": "REFUTED: the test compares the tile's extent with itself, so the MaxZoom tile of the lower left corner is always returned (C71_exact)"
  },
  {
   "property": "C72",
   "status": "proved",
   "theorems": [
    "C72_pixel_ratio"
   ],
   "note": "every zoom and dimension; latitude functions arbitrary"
  },
  {
   "property": "C73",
   "status": "proved",
   "theorems": [
    "C73_total",
    "C73_trailing"
   ],
   "note": "every byte string; numbers by the modelled strconv.ParseFloat"
  },
  {
   "property": "C74",
   "status": "partial",
   "theorems": [
    "C74_refuted",
    "C74_reencode_partial"
   ],
   "note": "REFUTED: LINESTRING (1 1,1 1) is decoded and cannot be encoded; proved for decoded geometries with enough distinct points"
  },
  {
   "property": "C75",
   "status": "partial",
   "theorems": [
    "C75_refuted",
    "C75_cause",
    "C75_total"
   ],
   "note": "REFUTED: null for type, coordinates, geometries or a member of geometries is a nil dereference; proved to be the only cause, and that decoding ends"
  },
  {
   "property": "C76",
   "status": "partial",
   "theorems": [
    "C76_refuted"
   ],
   "note": "REFUTED: a feature with nil geometry is never written, and a null geometry is refused by the reader"
  },
  {
   "property": "C77",
   "status": "partial",
   "theorems": [
    "C77_walk",
    "C77_ends",
    "C77_loop_refuted",
    "C77_find"
   ],
   "note": "proved when no quad-edge has both ends at the vertex; REFUTED with a loop: its second end stops the walk; FindONextDest proved"
  },
  {
   "property": "C78",
   "status": "partial",
   "theorems": [
    "C78_exact",
    "C78_axis_partial",
    "C78_apart_refuted",
    "C78_inside_refuted"
   ],
   "note": "REFUTED: an end point in the bounding box suffices, so parallel lines apart are called colinear, and a segment inside the other is missed in one order; exact behaviour on grids proved"
  },
  {
   "property": "C79",
   "status": "partial",
   "theorems": [
    "C79_shared_partial",
    "C79_shared_refuted",
    "C79_point_refuted"
   ],
   "note": "proved for shared points that are the first of one segment; REFUTED for shared last points and for the position of the point at large coordinates"
  },
  {
   "property": "C80",
   "status": "partial",
   "theorems": [
    "C80_corner_refuted",
    "C80_single_refuted"
   ],
   "note": "REFUTED: a segment through two corners is dropped, and a line that leaves from a vertex on a side gives a piece of one point; true for lines that pass no corner (C47_exact)"
  },
  {
   "property": "C81",
   "status": "partial",
   "theorems": [
    "C81_points_partial",
    "C81_zero_refuted",
    "C81_small_refuted"
   ],
   "note": "REFUTED: AsSegments(0) panics, AsSegments(1) and (2) are not closed; the points are right"
  },
  {
   "property": "C82",
   "status": "proved",
   "theorems": [
    "C82_area",
    "C82_colinear",
    "C82_center",
    "C82_third"
   ],
   "note": "bit exact, on grids"
  },
  {
   "property": "C83",
   "status": "proved",
   "theorems": [
    "C83_contains",
    "C83_panics"
   ],
   "note": "rounding included, for coordinates up to 2^40"
  },
  {
   "property": "C84",
   "status": "proved",
   "theorems": [
    "C84_terminates"
   ],
   "note": "finite points with finite differences in y"
  },
  {
   "property": "C85",
   "status": "partial",
   "theorems": [
    "C85_real_partial",
    "C85_colinear_partial",
    "C85_misses_refuted",
    "C85_infinite_refuted"
   ],
   "note": "true in exact arithmetic (the same code over the reals); REFUTED for float64: a circle can miss its own point by rounding, or have an infinite centre"
  },
  {
   "property": "C86",
   "status": "proved",
   "theorems": [
    "C86_box",
    "C86_axis",
    "C86_segment_box",
    "C86_integer_slope"
   ],
   "note": "bit exact"
  },
  {
   "property": "C87",
   "status": "proved",
   "theorems": [
    "C87_unique"
   ],
   "note": "any sorting routine that sorts strict weak orders"
  },
  {
   "property": "C88",
   "status": "partial",
   "theorems": [
    "C88_points",
    "C88_segment_partial",
    "C88_end_refuted"
   ],
   "note": "points proved; segments proved in exact arithmetic (the same code over the reals), no bound of the rounding error yet; with float64 an end point can be at a positive distance (C88_end_refuted)"
  },
  {
   "property": "C89",
   "status": "partial",
   "theorems": [
    "C89_box_refuted",
    "C89_end_refuted",
    "C89_nan_refuted"
   ],
   "note": "REFUTED: Line.ContainsPoint is a bounding box test; IsPointOnLineSegment can refuse an end point and accepts NaN"
  },
  {
   "property": "C90",
   "status": "partial",
   "theorems": [
    "C90_twice_refuted"
   ],
   "note": "REFUTED with Go's insertion sort and the default comparator"
  },
  {
   "property": "C91",
   "status": "partial",
   "theorems": [
    "C91_flat_refuted"
   ],
   "note": "REFUTED: beyond 2^53 the vertices are on one line"
  },
  {
   "property": "C92",
   "status": "partial",
   "theorems": [
    "C92_loops_refuted"
   ],
   "note": "REFUTED: it loops forever if the differences in y overflow and the points are vertical pairs"
  },
  {
   "property": "C93",
   "status": "proved",
   "theorems": [
    "C93_calls",
    "C93_cancelled"
   ],
   "note": "Calls characterised for every callback; cancellation for every context. NaN excluded; the sort is any routine that sorts."
  },
  {
   "property": "C94",
   "status": "proved",
   "theorems": [
    "C94_meet"
   ],
   "note": "On grids where C46 makes SegmentIntersect exact."
  },
  {
   "property": "C95",
   "status": "partial",
   "theorems": [
    "C95_tiny_refuted"
   ],
   "note": "REFUTED: two segments of length 1e-9 crossing in the middle are skipped, their ends being equal within the tolerance (C95_tiny_refuted). What is skipped is stated exactly in C93."
  },
  {
   "property": "C96",
   "status": "proved",
   "theorems": [
    "C96_search",
    "C96_no_panic"
   ],
   "note": "With at least two segments and coordinates up to 2^30; the order in which sort.Sort leaves equal entries and the numbers NewTree computes in floating point are parameters."
  },
  {
   "property": "C97",
   "status": "proved",
   "theorems": [
    "C97_parity"
   ],
   "note": "Integer coordinates up to 512; the exact even-odd rule, including rings with an index. All scales: C100."
  },
  {
   "property": "C98",
   "status": "proved",
   "theorems": [
    "C98_same",
    "C98_outside",
    "C98_crossing"
   ],
   "note": "Consequences of C97 and of the even-odd rule proved over the reals."
  },
  {
   "property": "C99",
   "status": "partial",
   "theorems": [
    "C99_one_refuted",
    "C99_far_refuted"
   ],
   "note": "REFUTED. An index over one segment is nil and finds nothing; at 2^38 the 0.00001 added to boxes is lost and a segment touching the query is missed. C96 is the true part."
  },
  {
   "property": "C100",
   "status": "partial",
   "theorems": [
    "C100_relative_refuted",
    "C100_vertex_refuted",
    "C100_index_refuted"
   ],
   "note": "REFUTED. The centre of an 8 m square at 10^7 is outside (relative tolerance); a point 2^-30 above the height of a vertex is outside; at 2^38 the answer changes when points are added to the sides (index). C97 is the true part."
  },
  {
   "property": "C101",
   "status": "partial",
   "theorems": [
    "C101_least",
    "C101_origin_refuted"
   ],
   "note": "REFUTED. The box starts as the zero extent and so always contains the origin (C101_origin_refuted); C101_least says what it is."
  },
  {
   "property": "C102",
   "status": "partial",
   "theorems": [
    "C102_number_refuted",
    "C102_side_refuted",
    "C102_north_refuted",
    "C102_valid_refuted"
   ],
   "note": "REFUTED. Number 61 just before 180 E, zone 32 west of 6 E, zone 32X at (7 E, 84 N), IsValid accepts letter I. C53 is the true part."
  },
  {
   "property": "C103",
   "status": "proved",
   "theorems": [
    "C103_meridian"
   ],
   "note": ""
  },
  {
   "property": "C104",
   "status": "partial",
   "theorems": [
    "C104_panic_partial",
    "C104_equator_refuted",
    "C104_west_refuted"
   ],
   "note": "REFUTED. Panics on the first kilometre of every 2000 km from the equator (odd zones north, even zones south), and for longitudes below -180; C104_panic_partial says exactly when, for any cosine routine with values in [0,1] and at most 3/5 from 56 N on."
  },
  {
   "property": "C105",
   "status": "partial",
   "theorems": [
    "C105_square_refuted"
   ],
   "note": "REFUTED. The table has X twice in the eastern letters of zones divisible by three."
  },
  {
   "property": "C106",
   "status": "proved",
   "theorems": [
    "C106_normalize"
   ],
   "note": "The lower bound -180-2^-30 covers rounding of the number of turns."
  },
  {
   "property": "C107",
   "status": "partial",
   "theorems": [
    "C107_west_refuted"
   ],
   "note": "REFUTED. Longitudes below -180 are left as they are (C107_west_refuted); C106 is the true part."
  },
  {
   "property": "C108",
   "status": "proved",
   "theorems": [
    "C108_lat",
    "C108_lng"
   ],
   "note": ""
  },
  {
   "property": "C109",
   "status": "proved",
   "theorems": [
    "C109_total",
    "C109_area",
    "C109_simple"
   ],
   "note": "The area for integer coordinates up to 4096, where the comparators are exact."
  },
  {
   "property": "C110",
   "status": "partial",
   "theorems": [
    "C110_closed_refuted",
    "C110_lost_refuted",
    "C110_repeated_refuted"
   ],
   "note": "REFUTED. Closed rings panic (C110_closed_refuted, a theorem about all of them whose first vertex is leftmost), a spike before a repeated vertex loses the whole ring, a vertex met three times stays twice. C109 is the true part."
  },
  {
   "property": "C111",
   "status": "proved",
   "theorems": [
    "C111_total",
    "C111_no_repeat",
    "C111_triangulation"
   ],
   "note": ""
  },
  {
   "property": "C112",
   "status": "proved",
   "theorems": [
    "C112_total",
    "C112_components"
   ],
   "note": "A component may still yield no polygon when PolygonForRing loses its ring (C110); the statement says so."
  },
  {
   "property": "C113",
   "status": "partial",
   "theorems": [
    "C113_twice_refuted",
    "C113_panic_refuted"
   ],
   "note": "REFUTED. A triangle given twice disappears; a triangle whose third vertex is its first panics. C112 is the true part."
  },
  {
   "property": "C114",
   "status": "partial",
   "theorems": [
    "C114_island_refuted",
    "C114_rounding_refuted",
    "C114_clipbox_refuted",
    "C114_nan_refuted",
    "C114_extent_refuted"
   ],
   "note": "REFUTED. An island in another polygon's hole is outside; with a clip box nothing but the origin is inside; 20-bit rounding moves the centre of a 6 m square at 10^7 out of it; NaN panics; the extent reaches to the origin. C54 is the true part."
  },
  {
   "property": "C115",
   "status": "partial",
   "theorems": [
    "C115_twice_refuted",
    "C115_along_refuted"
   ],
   "note": "REFUTED. unique does not shorten its caller's slice: the end of the result repeats segments, even ones that were there once. A vertex in the middle of a straight side leaves a segment along two others. C55 is the true part."
  },
  {
   "property": "C116",
   "status": "proved",
   "theorems": [
    "C116_kept",
    "C116_others"
   ],
   "note": "The triangulation (delaunay.GeomConstrained) is an argument: what it returns is assumed to be equally turned triangles with integer centres."
  },
  {
   "property": "C117",
   "status": "partial",
   "theorems": [
    "C117_cancelled_refuted",
    "C117_nothing_refuted"
   ],
   "note": "REFUTED. If the context is cancelled Destructure returns (nil, nil), and Makevalid a nil *MultiPolygon, true and no error; also if no triangle is kept."
  },
  {
   "property": "C118",
   "status": "proved",
   "theorems": [
    "C118_near",
    "C118_corners",
    "C118_inside",
    "C118_order",
    "C118_exact",
    "C118_points"
   ],
   "note": "Accuracy for values between 2^-400 and 2^400; corners, containment and order for every finite tile whose spans do not overflow; exactness on integer tiles with sides a power of two."
  },
  {
   "property": "C119",
   "status": "proved",
   "theorems": [
    "C119_vanishes",
    "C119_thinned",
    "C119_multiline",
    "C119_roundtrip"
   ],
   "note": "Thinning for every line and tile; the round trip through the encoder on integer tiles with pixels up to 2^20."
  },
  {
   "property": "C120",
   "status": "proved",
   "theorems": [
    "C120_rings",
    "C120_panics",
    "C120_multi",
    "C120_roundtrip"
   ],
   "note": "Rings, panics and multi-polygons for every input; the round trip on integer tiles for rings whose float64 orientation is exact."
  },
  {
   "property": "C121",
   "status": "partial",
   "theorems": [
    "C121_collapsing_hole_refuted",
    "C121_hole_becomes_outer_refuted",
    "C121_collapsing_line_refuted",
    "C121_flat_tile_refuted"
   ],
   "note": "REFUTED. A hole, or a polygon of a multi-polygon, whose pixels fall together makes PrepareGeo panic (ln[0] of a nil line); an outer ring of one point is skipped and the hole takes its place; a line that shrinks to a point comes back empty and encoding it panics; a tile of no width gives NaN. C118 to C120 are the true part."
  },
  {
   "property": "C122",
   "status": "proved",
   "theorems": [
    "C122_triangulation"
   ],
   "note": "For every result on distinct finite points; crossing is in the order of the points (geometric crossing: C124, C125)."
  },
  {
   "property": "C123",
   "status": "proved",
   "theorems": [
    "C123_ends",
    "C123_joins",
    "C123_safe"
   ],
   "note": "Ending and joining for all finite points; freedom from panics for integer points up to 2^16, at most 2^18 of them."
  },
  {
   "property": "C124",
   "status": "proved",
   "theorems": [
    "C124_convex"
   ],
   "note": "Integer points up to 2^16, at most 2^18 of them, where the float64 orientation is exact."
  },
  {
   "property": "C125",
   "status": "partial",
   "theorems": [
    "C125_closed_refuted",
    "C125_crossing_refuted",
    "C125_colinear_refuted",
    "C125_delaunay_refuted",
    "C125_lost_refuted"
   ],
   "note": "REFUTED. A ring which ends in its first point is always rejected as too small; lines of a simple polygon cross its sides; three colinear points in a row give the all-colinear error for a polygon with area; the triangles of a convex polygon need not be Delaunay; the lines of an inner ring are lost if only two points are left. C122 to C124 are the true part."
  },
  {
   "property": "C126",
   "status": "proved",
   "theorems": [
    "C126_walk"
   ],
   "note": ""
  },
  {
   "property": "C127",
   "status": "proved",
   "theorems": [
    "C127_index",
    "C127_remove"
   ],
   "note": "For points which the rounding and the comparison keep apart."
  },
  {
   "property": "C128",
   "status": "proved",
   "theorems": [
    "C128_triangles"
   ],
   "note": "All faces triangles, no loops, one point for one vertex; includes the outside face (C129)."
  },
  {
   "property": "C129",
   "status": "partial",
   "theorems": [
    "C129_outside_refuted",
    "C129_face_refuted"
   ],
   "note": "REFUTED. Triangles(true) of a single triangle returns the outside as a second one; next to a face of four sides a triangle is reported again the other way round. C128 is the true part."
  },
  {
   "property": "C130",
   "status": "proved",
   "theorems": [
    "C130_sector",
    "C130_unique"
   ],
   "note": "Integer coordinates up to 2^20, where the float64 cross products are exact."
  },
  {
   "property": "C131",
   "status": "proved",
   "theorems": [
    "C131_ray",
    "C131_end"
   ],
   "note": "Integer coordinates up to 2^20; the exception for opposite edges is C132."
  },
  {
   "property": "C132",
   "status": "partial",
   "theorems": [
    "C132_beyond_refuted",
    "C132_behind_refuted",
    "C132_coincident_refuted"
   ],
   "note": "REFUTED. With two opposite edges a point beyond the end of the starting edge gives the other edge; a lone edge and a point behind it give the colinear error; coincident edges give no error. C130 and C131 are the true part."
  },
  {
   "property": "C133",
   "status": "proved",
   "theorems": [
    "C133_right"
   ],
   "note": "Integer coordinates up to 2^20."
  },
  {
   "property": "C134",
   "status": "proved",
   "theorems": [
    "C134_insert",
    "C134_within"
   ],
   "note": "Integer coordinates up to 2^20. The panic for an edge with the same corner on both sides is an allowed outcome. That the result is Delaunay is not claimed: the circle test rounds. C134_within shows that the condition for points on an edge holds between two counter-clockwise triangles."
  },
  {
   "property": "C135",
   "status": "proved",
   "theorems": [
    "C135_reached"
   ],
   "note": "By induction on the calls; the exception for points on the starting edge is C138."
  },
  {
   "property": "C136",
   "status": "proved",
   "theorems": [
    "C136_new"
   ],
   "note": "Conditional on New returning a starting edge; it panics when ResolveEdge reports an error for the centre."
  },
  {
   "property": "C137",
   "status": "proved",
   "theorems": [
    "C137_locate"
   ],
   "note": "Integer coordinates up to 2^20."
  },
  {
   "property": "C138",
   "status": "partial",
   "theorems": [
    "C138_vertex_refuted",
    "C138_start_refuted",
    "C138_frame_refuted"
   ],
   "note": "REFUTED. The origin of the starting edge gives false although it is a vertex; a point on the starting edge gives true and the starting edge is then detached from the graph; points on the other frame sides give false. C134 and C135 are the true part."
  },
  {
   "property": "C139",
   "status": "partial",
   "theorems": [
    "C139_delaunay_refuted"
   ],
   "note": "REFUTED for points which are almost on one circle: the circle test accepts points outside by up to one part in 10^9 and the edge is swapped. Nothing is proved about triangulations without such points."
  },
  {
   "property": "C140",
   "status": "partial",
   "theorems": [
    "C140_crossing"
   ],
   "note": "What is returned crosses the segment; it is not proved that every edge which crosses it is returned."
  },
  {
   "property": "C141",
   "status": "partial",
   "theorems": [
    "C141_limit_partial"
   ],
   "note": "The property does not hold: after 21 rounds FindIntersectingEdges returns an error, and the constraint is not inserted. Proved is the limit of 21 edges. That InsertConstraint fails across a zigzag of 24 points is computed, not a theorem: the kernel takes too long to check the run without its virtual machine."
  },
  {
   "property": "C142",
   "status": "proved",
   "theorems": [
    "C142_kept",
    "C142_edge"
   ],
   "note": ""
  },
  {
   "property": "C143",
   "status": "partial",
   "theorems": [
    "C143_cleared_refuted"
   ],
   "note": "REFUTED: a constraint which begins and ends with the direction of an edge is taken to exist. Nothing is proved about constraints without vertices on them."
  },
  {
   "property": "C144",
   "status": "proved",
   "theorems": [
    "C144_classify"
   ],
   "note": ""
  },
  {
   "property": "C145",
   "status": "partial",
   "theorems": [
    "C145_slice_refuted"
   ],
   "note": "REFUTED: the points are rounded to three decimals in the slice of the caller."
  },
  {
   "property": "C146",
   "status": "partial",
   "theorems": [
    "C146_round",
    "C146_points",
    "C146_finite_refuted",
    "C146_zero_refuted"
   ],
   "note": "Proved while |v| * 10^p is at most 2^40, but for the sign of zero. REFUTED otherwise: 2^1023 is rounded to an infinity, and -0.0001 to the negative zero."
  },
  {
   "property": "C147",
   "status": "proved",
   "theorems": [
    "C147_hull",
    "C147_symmetric"
   ],
   "note": ""
  },
  {
   "property": "C148",
   "status": "partial",
   "theorems": [
    "C148_collinear",
    "C148_small_refuted"
   ],
   "note": "Proved for integers. REFUTED for small triangles: (0,0), (1/1024,0), (0,1/1024) are reported to be collinear."
  },
  {
   "property": "C149",
   "status": "proved",
   "theorems": [
    "C149_corners"
   ],
   "note": ""
  },
  {
   "property": "C150",
   "status": "proved",
   "theorems": [
    "C150_inside"
   ],
   "note": ""
  },
  {
   "property": "C151",
   "status": "proved",
   "theorems": [
    "C151_shared",
    "C151_tells"
   ],
   "note": ""
  },
  {
   "property": "C152",
   "status": "partial",
   "theorems": [
    "C152_own",
    "C152_opposite_refuted"
   ],
   "note": "REFUTED: the result always is a corner of the first triangle."
  },
  {
   "property": "C153",
   "status": "proved",
   "theorems": [
    "C153_opposite"
   ],
   "note": ""
  },
  {
   "property": "C154",
   "status": "proved",
   "theorems": [
    "C154_repeat",
    "C154_length",
    "C154_points"
   ],
   "note": ""
  },
  {
   "property": "C155",
   "status": "partial",
   "theorems": [
    "C155_constraint_refuted"
   ],
   "note": "REFUTED: unless an environment variable is set the constraints are ignored."
  },
  {
   "property": "C156",
   "status": "partial",
   "theorems": [
    "C156_memory_refuted",
    "C156_memory_partial"
   ],
   "note": "REFUTED: constraints are appended to the array of the caller, and the points are rounded in it. Proved if there are constraints and no room for them."
  },
  {
   "property": "C157",
   "status": "proved",
   "theorems": [
    "C157_accepts",
    "C157_rejects",
    "C157_decides",
    "C157_nil"
   ],
   "note": ""
  },
  {
   "property": "C158",
   "status": "partial",
   "theorems": [
    "C158_order_refuted",
    "C158_twice_refuted",
    "C158_covered_refuted"
   ],
   "note": "REFUTED: the directions are only counted, and the line of the first edge is compared with itself instead of the other edges."
  }
 ]
}