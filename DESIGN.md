# A Rocq model of go-spatial/geom

This directory holds a machine-checked model of go-spatial/geom (source in
`/repo`, pinned) and proofs of the properties in `properties.jsonl`.
`MANIFEST.json` maps each property to its theorems, `seeded/LOG.jsonl` records
the wrong programs the theorems were tested against.

## Layout

`rocq/theories/` holds five kinds of files, grouped by topic:

* `Base_*.v`  — shared vocabulary (float64 words, bytes, results, lists).
* `M_*.v`     — the model: executable Gallina definitions, no proofs.  Every
  definition cites the Go file and lines it models and says what it simplifies.
* `S_*.v`     — small independent specifications the theorems are stated with.
  They do not use the model's helpers.
* `P_*.v`     — lemmas and proofs.
* `T_*.v`     — the property theorems only; each is closed by `exact lemma.`,
  followed by `Print Assumptions`, with non-vacuity `Example`s beside it.

Theorem names start with the property's id.  The suffix `_refuted` marks a
counterexample: the unchanged code violates the claim.  The suffix `_partial`
marks a theorem that proves only part of its claim; what is missing is said in
the comment above it.

## How the code is modelled

* **float64.**  A float64 is the integer 0 <= w < 2^64 of its IEEE-754 bits
  (`math.Float64bits`).  `<`, `<=`, `==`, `math.Min`, `math.Max`, `math.Abs`,
  NaN, infinities and signed zeros are defined on words and proved to agree with
  Flocq's `binary64`.  `+ - * /`, `math.Sqrt`, `math.Floor`/`Ceil`/`Trunc`,
  conversions to and from integers are Flocq's operations, rounding to nearest
  even, so **rounding, overflow and underflow are part of the model** and part of
  every theorem unless its status says "in exact arithmetic".  A Go compiler may
  fuse `x*y + z` into one rounding on some architectures (not on amd64); the model
  rounds every operation, as the amd64 compiler does.
* **Transcendental functions** (`math.Cos`, `Sin`, `Tan`, `Log`, `Exp`, `Pow`,
  `Atan`, `Sinh`) are arguments of the model: a theorem holds for any functions,
  or states what it needs of them.
* **Slices** are lists; where the code mutates a caller's slice, or two slices
  share an array, the model returns the mutated input, or works on an explicit
  memory (`M_GeojsonAlias`, `M_RtreeAlias`, `M_Cmp`, `M_Winding`, `M_Geom`'s clone).
* **Errors** are values (`Ok v | Err e | Panic`); run-time panics (index out of
  range, nil dereference, oversized `make`, explicit `panic`) are `Panic`.
* **Loops without an evident bound** take fuel; running out is a value of its own,
  and a theorem excludes it (or, for the endless loop of C92, shows it for every
  amount of fuel).
* **Go interfaces**: a geometry is an inductive type with one constructor per
  interface kind plus `GUnknown` for any other value.
* **Integers**: `int`, `uint`, `uint32`, `int64` … are `Z` with explicit wrapping
  where the code can wrap.
* **Goroutines**: state machines over atomic steps; theorems quantify over all
  interleavings.  A `context.Context` is a function from the number of the poll to
  "cancelled".
* **Maps**: association lists; the iteration order is an arbitrary permutation.
* **Sorting** (`sort.Sort`, `sort.Slice`): any function that returns a sorted
  permutation where the order is strict weak, so ties may come out in any order.
  Where the order is not strict weak (tolerant comparison) Go's own insertion sort
  for short slices is modelled.

## Plan per property

| id | what is modelled | how it is proved |
|----|------------------|------------------|
| C01-C04, C57 | byte-level WKB encoder and decoder (both byte orders, recursion) | induction on the geometry; decoder with fuel, theorem excludes exhaustion; independent layout relation |
| C05-C07, C58 | GeoPackage header bits, envelope, blob | bit lemmas by case analysis on flags, reuse of C01 |
| C08-C11, C15, C60-C61 | zigzag, command integers, cursor, geometry encode/decode with uint32/int64 wrap | arithmetic lemmas; induction over parts; witnesses for panics |
| C12-C14, C59, C62-C64 | key/value tables with arbitrary map order, values, layers, tiles, the vectorTile structs | invariants over loops and histories; witnesses |
| C16-C22 | extents on float64 words | order lemmas on words; folds; rounding lemmas for C22 |
| C23-C25 | traversals over the geometry tree, a heap of slices for Clone | induction on trees |
| C26-C29 | tolerant float comparison, sorting, rotation, equality | bit-level lemmas; permutation lemmas; witnesses |
| C30, C51 | atomic cells and interleavings | invariants over all schedules |
| C31-C32 | shoelace sum in float64, RectifyPolygon | exactness on grids (Flocq), ring algebra; rounding counterexamples |
| C33-C34 | Douglas-Peucker recursion, Simplify | well-founded induction, any distance function |
| C35-C36 | kd-tree insertion and two-heap iterator | invariants over histories, container/heap modelled and proved a priority queue |
| C37-C38, C65-C69 | R-tree insertion, splits, search, bulk load, nearest neighbours, deletion; a memory model for aliasing | tree invariants, multiset semantics, rounding bounds |
| C39-C41, C70-C72 | tile arithmetic, columns and rows of coordinates | arithmetic; Flocq error bounds |
| C42-C43, C73-C74 | WKT text encoder and parser, strconv's formatting and parsing of numbers | induction; correctly rounded conversion proved; witnesses |
| C44-C45, C75-C76 | GeoJSON at the JSON-tree level, shared arrays | induction; witnesses |
| C46-C47, C78-C80 | line and segment intersection, clipping | exactness on grids by error analysis; witnesses |
| C48, C56, C81-C92 | centroid, circles, triangles, distances, unique lines | exactness on grids; real algebra; witnesses |
| C49-C50, C77 | quad-edge heap: edges as (record, quarter), next map | invariants over histories |
| C52, C109-C113 | the walker: cutting rings, walking triangles, polygons per component | invariants of the loops; exact comparisons on small integers; witnesses |
| C53, C102-C108 | UTM zones, central meridians, grid letters, longitude normalisation, DMS | rounding lemmas, case analysis, any cosine routine within stated bounds; witnesses |
| C54, C114 | hit maps: labels of polygons and collections | error analysis over Ring.ContainsPoint; witnesses |
| C55, C115-C117 | Makevalid: destructuring into segments, clip box, kept triangles | the sweep's theorems, exact crossings at integers; any triangulation; witnesses |
| C93-C95 | the x sweep: event queue, callbacks, cancellation | invariant of the sweep; any callback, any context |
| C96-C101 | rings and their segment index (over the R-tree) | error analysis of boxes; even-odd parity over the reals; witnesses |
| C118-C121 | PrepareGeo: pixels, thinned lines, rings, into the encoder | relative error bounds, monotone rounding, exactness on integer tiles, composition with C10 and C11; witnesses |
| C122-C125 | pseudopolygon.Triangulate: rings within the ring, the edge map, the closest point, rotating the edge, the arcs | indices instead of points: cyclically increasing lists, arcs of a circle, gluing two triangulations along a diagonal; loop invariant of the inner rings; exact orientation on integers; witnesses |
| C126-C129 | WalkAllEdges, VertexIndex, WalkAllTriangles, Triangles on the quad-edge memory | loop invariants over visited sets with a measure (edges not yet visited); closure of the visited set under ONext and Sym; rings and faces as cycles; checker-validated witnesses |
| C130-C133 | ResolveEdge (both tables, the walk), RightOf, on float64 points | exact signs of cross products on integers; directions as a linear order of angles, ranks in a finite list turn cyclic order into integer arithmetic; the tables by cases of the three signs and the Pluecker identity; induction along the ring |
| C134-C138 | New, locate, testEdge, InsertSite with both loops, on float64 points | a mesh invariant (faces, labels, connectivity) kept by adding an edge, Connect, Delete and Swap; the star of the new point by induction on the corners left, with C130 for every Connect; the swap loop by the measure 2(edges - ring) + spokes left; histories by induction |
| C139 | the model of C134 | a computed run of four insertions, with the centre of the circle as an exact rational point |
| C140, C142 | FindIntersectingEdges, InsertConstraint, insertEdge, the point collector and the vertex index on the quad-edge memory of C126; the pseudo-polygon of C123 | an invariant (built by the operations, one origin per vertex, correct index) kept by every deletion and every Connect |
| C141 | FindIntersectingEdges | induction on the rounds of the loop |
| C143, C145 | the same model; NewForPoints | computed runs of insertions from New, checked step by step against the hypotheses of C134 |
| C144 | Classify on float64 words | exact arithmetic on integers; square roots of different integers below 2^43 round to different numbers since a multiple of 2^-30 lies between them |
| C146 | RoundToPrec and roundGeomPoint on float64 words | relative errors of the product and the quotient; the product of the rounded value and the power of ten is closer than 1/2 to the same integer |
| C147 | Hull and Extent of package spherical | exact arithmetic on the grid of 2^-40 degrees, the way to the east as a remainder |
| C148 | ThreePointsAreColinear with cmp.Float | exact arithmetic on integers; a computed counterexample for small triangles |
| C149, C151-C153 | the methods of subdivision.Triangle on the quad-edge memory of C126 | the three sides of the right face with their ends, then case analysis |
| C150 | IntersectsPoint with Classify (C144) | each answer of Classify decides, by identities between cross and dot products |
| C154 | GeomConstrained.Triangles: the points, NewForPoints, the constraints, Triangles | an invariant of the points collected so far |
| C155, C156 | the same; Constrained.Triangles on arrays and slice headers | computed runs; the arrays of the caller come before the new ones |
| C157, C158 | quadedge.Validate: the walk, the counts, the sweep | the sum of the signs of the turns; the sweep skips copies of one segment; computed vertices |

## Axioms

Recorded from `Print Assumptions` (also printed beneath every theorem in the
`T_*.v` files).  Only axioms of Coq's standard library occur:

* S = `ClassicalDedekindReals.sig_forall_dec`, N = `ClassicalDedekindReals.sig_not_dec`
  (the construction of the reals),
* F = `FunctionalExtensionality.functional_extensionality_dep` (also the reals),
* C = `Classical_Prop.classic` (used by Flocq's rounding lemmas).

"-" means closed under the global context.

| property | theorems with axioms | theorems closed under the global context |
|---|---|---|
| C01 | - | C01_wkb_roundtrip |
| C02 | - | C02_wkb_exact_end, C02_norm_is_identity_on_open, C02_wkb_truncation, C02_wkb_decode_total |
| C03 | - | C03_wkb_encoder_layout, C03_wkb_written_ring_closed, C03_wkb_closed_or_open |
| C04 | - | C04_wkb_encode_fails_iff_unknown |
| C05 | - | C05_header_roundtrip, C05_new_header_iff, C05_header_layout, C05_nil_header_is_an_error |
| C06 | - | C06_decode_header_exact, C06_magic_checked_refuted |
| C07 | - | C07_blob_roundtrip, C07_decode_never_panics, C07_new_binary_never_panics |
| C08 | - | C08_zigzag_roundtrip_iff, C08_zigzag_onto, C08_zigzag_value |
| C09 | - | C09_command_roundtrip, C09_command_split |
| C10 | **S N F C**: C10_point_roundtrip, C10_multipoint_roundtrip, C10_linestring_roundtrip, C10_multilinestring_roundtrip | - |
| C11 | **S N F C**: C11_polygon_roundtrip, C11_multipolygon_roundtrip, C11_flat_outer_ring_refuted | - |
| C12 | - | C12_tags_lossless, C12_tables_distinct, C12_tables_tight, C12_tables_built_iff, C12_nan_refuted |
| C13 | **S N F C**: C13_decoded_tile_refuted | C13_names_distinct, C13_add_layers |
| C14 | - | C14_features_after, C14_remove_refuted, C14_remove_exact, C14_kept_list_right |
| C15 | **S N F C**: C15_points_never_panic, C15_panic_cases, C15_never_panics_refuted, C15_terminates | - |
| C16 | - | C16_new_extent_least, C16_new_extent_nil_iff |
| C17 | - | C17_grow_least, C17_grow_order_independent, C17_grow_nil |
| C18 | - | C18_contains_is_inclusion, C18_contains_point, C18_contains_line, C18_contains_refl, C18_contains_trans, C18_contains_antisym, C18_nil_contains_all |
| C19 | **S N F C**: C19_intersect_false_iff | C19_intersect_members, C19_intersect_comm |
| C20 | - | C20_contains_geom_refuted, C20_contains_geom_exact |
| C21 | - | C21_extent_from_geometry, C21_extent_from_geometry_nil_iff |
| C22 | **S N F C**: C22_scale_by, C22_expand_by, C22_expand_by_contains, C22_scale_by_infinite_refuted | - |
| C23 | - | C23_get_coordinates, C23_get_coordinates_error_iff, C23_extract_lines, C23_extract_lines_error_iff |
| C24 | - | C24_clone, C24_apply_to_points, C24_run_is_deterministic, C24_apply_rejects_other_kinds |
| C25 | - | C25_linestring_as_segments, C25_multilinestring_as_segments, C25_polygon_as_segments, C25_multipolygon_as_segments |
| C26 | **S N F C**: C26_reflexive, C26_symmetric, C26_infinite, C26_same_value, C26_same_sign, C26_opposite_sign, C26_equal_is_close, C26_close_is_equal, C26_within_tolerance_refuted, C26_slice_order | - |
| C27 | - | C27_strict_order, C27_sorting_unique |
| C28 | - | C28_rotate_to_index, C28_rotate_out_of_range, C28_leftmost_first, C28_leftmost_is_minimum |
| C29 | **S N F C**: C29_reflexive, C29_symmetric_partial, C29_symmetry_refuted, C29_multiline_exact, C29_multipoint_any_order, C29_any_start_partial, C29_any_start_refuted, C29_same_kind, C29_multipoint_matching, C29_linestring_matching, C29_polygon_matching, C29_polygon_extents, C29_multipolygon_matching, C29_collection_exact, C29_arguments_reordered, C29_arguments_unchanged_refuted | - |
| C30 | - | C30_returned_was_installed_partial, C30_installed, C30_last_store, C30_without_overlap_partial, C30_handed_to_one_caller_refuted |
| C31 | **S N F C**: C31_orientation_is_area_sign, C31_reversing_flips, C31_starting_point_irrelevant, C31_translation_invariant, C31_mirroring_flips, C31_axis_flips, C31_short_is_colinear, C31_integer_rings, C31_starting_point_rounding_refuted, C31_reversing_rounding_refuted | - |
| C32 | **S N F C**: C32_rectified_windings, C32_rings_kept, C32_nil_iff, C32_argument_afterwards, C32_rounding_refuted | - |
| C33 | **S N F C**: C33_closed_line_collapses | C33_terminates, C33_keeps, C33_kept_vertices, C33_farthest_first, C33_no_tolerance, C33_no_error_without_cancel, C33_error_when_cancelled |
| C34 | **S N F C**: C34_closed_rings_vanish | C34_structure, C34_no_added_points, C34_douglas_peucker |
| C35 | - | C35_contents, C35_kept, C35_insert, C35_split, C35_boxes |
| C36 | **S N F C**: C36_euclidean_partial, C36_euclidean_refuted | C36_nearest_first, C36_all |
| C37 | **S N F C**: C37_contents, C37_min_children, C37_search, C37_no_panic_partial, C37_no_panic_refuted | - |
| C38 | **S N F C**: C38_exact, C38_shape | - |
| C39 | **S N F C**: C39_family | C39_in_grid |
| C40 | **S N F C**: C40_covers_columns, C40_world_refuted | C40_rectangle |
| C41 | - | C41_lexicographic, C41_strict_total |
| C42 | **S N F C**: C42_roundtrip, C42_only, C42_strconv, C42_error, C42_exact, C42_all_refuted | - |
| C43 | **S N F C**: C43_refuted | - |
| C44 | **S N F C**: C44_feature, C44_collection, C44_geometry, C44_nil_refuted | C44_refused |
| C45 | - | C45_refuted, C45_effect, C45_shared_refuted, C45_closed, C45_twice |
| C46 | **S N F C**: C46_symmetric, C46_exact, C46_point, C46_line_point, C46_same_point | - |
| C47 | **S N F C**: C47_order, C47_runs, C47_inside, C47_part, C47_exact, C47_total, C47_context, C47_lines, C47_geometry, C47_universe, C47_point | C47_points |
| C48 | **S N F C**: C48_origin_partial, C48_formula, C48_away_refuted, C48_closed_refuted | - |
| C49 | - | C49_rot, C49_algebra, C49_kinds, C49_rings, C49_new, C49_connect, C49_swap |
| C50 | - | C50_twice, C50_origins, C50_faces, C50_delete |
| C51 | - | C51_unique |
| C52 | **S N F C**: C52_bridges | C52_cut, C52_total |
| C53 | **S N F C**: C53_letter, C53_zone, C53_error | - |
| C54 | **S N F C**: C54_polygons, C54_new, C54_ordered, C54_rounding | - |
| C55 | **S N F C**: C55_segments, C55_clipped, C55_unique, C55_comparators | - |
| C56 | - | C56_chain |
| C57 | - | C57_wkb_decode_any_layout, C57_layout_inhabited, C57_wkb_decode_only_layout |
| C58 | - | C58_envelope_order_refuted, C58_envelope_order_exact |
| C59 | - | C59_value_kept, C59_int_lost_refuted |
| C60 | **S N F C**: C60_points_layout, C60_linestring_layout, C60_multilinestring_layout, C60_polygon_layout, C60_multipolygon_layout | - |
| C61 | **S N F C**: C61_encode_error_iff, C61_encode_panic_iff, C61_never_panics_refuted | - |
| C62 | **S N F C**: C62_features_encodable | C62_collection_features, C62_features_are_members |
| C63 | **S N F C**: C63_tile_roundtrip, C63_attributes_refuted | C63_geom_collection |
| C64 | **S N F C**: C64_optional_fields_refuted, C64_panic_cases | - |
| C65 | **S N F C**: C65_limit, C65_filters, C65_abort_refuted | - |
| C66 | **S N F C**: C66_insert_after_bulk_refuted | - |
| C67 | **S N F C**: C67_nearest, C67_zero_refuted | - |
| C68 | **S N F C**: C68_member, C68_nearest_partial, C68_nearest_refuted | - |
| C69 | **S N F C**: C69_history, C69_search, C69_insert_after_delete_refuted, C69_min_children_refuted | - |
| C70 | **S N F C**: C70_size, C70_left_side, C70_roundtrip, C70_column_partial, C70_left, C70_monotone, C70_outside, C70_rows, C70_bound_partial, C70_in_grid_refuted | - |
| C71 | **S N F C**: C71_exact, C71_contains_refuted | - |
| C72 | **S N F C**: C72_pixel_ratio | - |
| C73 | **S N F C**: C73_total, C73_trailing | - |
| C74 | **S N F C**: C74_refuted, C74_reencode_partial | - |
| C75 | **S N F C**: C75_refuted, C75_cause, C75_total | - |
| C76 | **S N F C**: C76_refuted | - |
| C77 | - | C77_walk, C77_ends, C77_loop_refuted, C77_find |
| C78 | **S N F C**: C78_exact, C78_axis_partial, C78_apart_refuted, C78_inside_refuted | - |
| C79 | **S N F C**: C79_shared_partial, C79_shared_refuted, C79_point_refuted | - |
| C80 | **S N F C**: C80_corner_refuted, C80_single_refuted | - |
| C81 | - | C81_points_partial, C81_zero_refuted, C81_small_refuted |
| C82 | **S N F C**: C82_area, C82_colinear, C82_center, C82_third | - |
| C83 | **S N F C**: C83_contains, C83_panics | - |
| C84 | **S N F C**: C84_terminates | - |
| C85 | **S F**: C85_real_partial, C85_colinear_partial; **S N F C**: C85_misses_refuted, C85_infinite_refuted | - |
| C86 | **S N F C**: C86_axis, C86_segment_box, C86_integer_slope | C86_box |
| C87 | **S N F C**: C87_unique | - |
| C88 | **S N F C**: C88_points, C88_end_refuted; **S N F**: C88_segment_partial | - |
| C89 | **S N F C**: C89_box_refuted, C89_end_refuted, C89_nan_refuted | - |
| C90 | **S N F C**: C90_twice_refuted | - |
| C91 | **S N F C**: C91_flat_refuted | - |
| C92 | **S N F C**: C92_loops_refuted | - |
| C93 | **S N F C**: C93_calls, C93_cancelled | - |
| C94 | **S N F C**: C94_meet | - |
| C95 | **S N F C**: C95_tiny_refuted | - |
| C96 | **S N F C**: C96_search, C96_no_panic | - |
| C97 | **S N F C**: C97_parity | - |
| C98 | **S N F C**: C98_same, C98_outside, C98_crossing | - |
| C99 | **S N F C**: C99_one_refuted, C99_far_refuted | - |
| C100 | **S N F C**: C100_relative_refuted, C100_vertex_refuted, C100_index_refuted | - |
| C101 | **S N F C**: C101_least, C101_origin_refuted | - |
| C102 | **S N F C**: C102_number_refuted, C102_side_refuted, C102_north_refuted, C102_valid_refuted | - |
| C103 | - | C103_meridian |
| C104 | **S N F C**: C104_panic_partial, C104_equator_refuted, C104_west_refuted | - |
| C105 | **S N F C**: C105_square_refuted | - |
| C106 | **S N F C**: C106_normalize | - |
| C107 | **S N F C**: C107_west_refuted | - |
| C108 | **S N F C**: C108_lat, C108_lng | - |
| C109 | **S N F C**: C109_total, C109_area, C109_simple | - |
| C110 | **S N F C**: C110_closed_refuted, C110_lost_refuted, C110_repeated_refuted | - |
| C111 | **S N F C**: C111_total, C111_no_repeat, C111_triangulation | - |
| C112 | **S N F C**: C112_total, C112_components | - |
| C113 | **S N F C**: C113_twice_refuted, C113_panic_refuted | - |
| C114 | **S N F C**: C114_island_refuted, C114_rounding_refuted, C114_clipbox_refuted, C114_extent_refuted | C114_nan_refuted |
| C115 | **S N F C**: C115_twice_refuted, C115_along_refuted | - |
| C116 | **S N F C**: C116_kept, C116_others | - |
| C117 | **S N F C**: C117_cancelled_refuted, C117_nothing_refuted | - |
| C118 | **S N F C**: C118_near, C118_corners, C118_inside, C118_order, C118_exact, C118_points | - |
| C119 | **S N F C**: C119_vanishes, C119_thinned, C119_multiline, C119_roundtrip | - |
| C120 | **S N F C**: C120_rings, C120_panics, C120_multi, C120_roundtrip | - |
| C121 | **S N F C**: C121_collapsing_hole_refuted, C121_hole_becomes_outer_refuted, C121_collapsing_line_refuted, C121_flat_tile_refuted | - |
| C122 | **S N F C**: C122_triangulation | - |
| C123 | **S N F C**: C123_ends, C123_joins, C123_safe | - |
| C124 | **S N F C**: C124_convex | - |
| C125 | **S N F C**: C125_closed_refuted, C125_crossing_refuted, C125_colinear_refuted, C125_delaunay_refuted, C125_lost_refuted | - |
| C126 | - | C126_walk |
| C127 | - | C127_index, C127_remove |
| C128 | - | C128_triangles |
| C129 | - | C129_outside_refuted, C129_face_refuted |
| C130 | **S N F C**: C130_sector, C130_unique | - |
| C131 | **S N F C**: C131_ray, C131_end | - |
| C132 | **S N F C**: C132_beyond_refuted, C132_behind_refuted, C132_coincident_refuted | - |
| C133 | **S N F C**: C133_right | - |
| C134 | **S N F C**: C134_insert | C134_within |
| C135 | **S N F C**: C135_reached | - |
| C136 | **S N F C**: C136_new | - |
| C137 | **S N F C**: C137_locate | - |
| C138 | **S N F C**: C138_vertex_refuted, C138_start_refuted, C138_frame_refuted | - |
| C139 | **S N F C**: C139_delaunay_refuted | - |
| C140 | **S N F C**: C140_crossing | - |
| C141 | **S N F C**: C141_limit_partial | - |
| C142 | **S N F C**: C142_kept, C142_edge | - |
| C143 | **S N F C**: C143_cleared_refuted | - |
| C144 | **S N F C**: C144_classify | - |
| C145 | **S N F C**: C145_slice_refuted | - |
| C146 | **S N F C**: C146_round, C146_points, C146_finite_refuted, C146_zero_refuted | - |
| C147 | **S N F C**: C147_hull, C147_symmetric | - |
| C148 | **S N F C**: C148_collinear, C148_small_refuted | - |
| C149 | - | C149_corners |
| C150 | **S N F C**: C150_inside | - |
| C151 | **S N F C**: C151_tells | C151_shared |
| C152 | **S N F C**: C152_opposite_refuted | C152_own |
| C153 | - | C153_opposite |
| C154 | **S N F C**: C154_repeat, C154_length, C154_points | - |
| C155 | **S N F C**: C155_constraint_refuted | - |
| C156 | **S N F C**: C156_memory_refuted, C156_memory_partial | - |
| C157 | **S N F C**: C157_accepts, C157_rejects, C157_decides, C157_nil | - |
| C158 | **S N F C**: C158_order_refuted, C158_twice_refuted, C158_covered_refuted | - |

## Trusted base

* Coq 8.16.1's kernel (and `vm_compute`), Coq's standard library with the axioms above,
  Flocq's definitions of binary64 arithmetic (they appear in the model, so a reader must
  believe they are IEEE 754).
* The reading of the Go code cited beside each definition: nothing links the Gallina text to
  the Go text mechanically.
* Go's semantics as encoded: slices, maps, integer wrap, evaluation order, panics,
  the unfused float64 operations.
* The documented behaviour of the parts of Go's library the model takes as arguments:
  `sort`, `encoding/json` (its rules for structs and raw messages), `math`'s
  transcendental functions, `io.Reader` over a byte buffer, `sync/atomic`.

No axiom, `Parameter`, `Admitted`, functor or module type is declared in `theories/`.

## What is modelled and what is not

| Go package | model | not modelled |
|---|---|---|
| geom (bbox, point, line, polygon, multi_*, geom, utils) | M_Extent, M_Geom, M_Planar (line.go), M_Round (RoundToPrec) | SetXxx/XY accessors of the Z, M, S variants; ContainsPointBigFloat, IsNil; RoundToPrec with a precision below 0 or above 22 |
| geom (circle, triangle) | M_Triangle, M_Planar | - |
| cmp | M_Cmp (compare, by_xy, helper, default_compare), M_Gpkg (empty) | sorting helpers of the Z/M variants |
| winding | M_Winding, M_Round (ThreePointsAreColinear) | - |
| spherical | M_Round | - |
| encoding/wkb | M_Wkb | readers and writers other than byte buffers |
| encoding/wkt | M_Wkt, M_Strconv | text of error messages, line numbers in errors |
| encoding/geojson | M_Geojson, M_GeojsonAlias | encoding/json itself (its JSON text parser) |
| encoding/gpkg | M_Gpkg | gpkg.go: SQLite access |
| encoding/mvt | M_Mvt, M_MvtLayer, M_MvtPrepare | protobuf wire format |
| planar | M_Intersect, M_Planar, M_Simplify, M_Clip | LineIntersectBigFloat |
| planar/intersect | M_Sweep, M_Ring | logging |
| planar/index/kdtree | M_Kd, M_Heap | - |
| internal/rtreego | M_Rtree, M_RtreeAlias | String methods |
| planar/triangulate/delaunay/quadedge | M_Quadedge, M_QuadedgeId, M_ResolveEdge (ResolveEdge, RightOf, OnEdge), M_Validate | nil edges, WKT dumps, error texts |
| planar/triangulate/delaunay/subdivision/pseudopolygon | Triangulate, triangulateSubRings, edgeMap (M_Pseudo) | logging; the circle is that of M_Triangle |
| planar/triangulate/delaunay/subdivision | WalkAllEdges, WalkAllTriangles, Triangles, VertexIndex, IsFrameEdge, IsHardFrameEdge, IsFramePoint (M_Subdivision); New, locate, testEdge, InsertSite (M_Insert); NewForPoints, FindIntersectingEdges, InsertConstraint, insertEdge, the point collector and quadedge.Classify (M_Constraint); the methods of Triangle (M_Face) | Validate and the other checks of the debug mode, constraints without an index, NewSubdivisionFromGeomLines, the test database |
| planar/triangulate/delaunay/constrained.go | M_Constrained | logging, reading the environment |
| planar/makevalid (with walker, hitmap) | M_Makevalid, M_Walker, M_Hitmap | logging, debug output; the constrained triangulation is an argument |
| planar/coord (with utm) | M_Coord | the projection formulas (fromLatLng's series), ellipsoid tables |
| slippy | M_Slippy | - |
| cmd, testing, vendor, internal/debugger, internal/parsing | - | all |

## Findings: where the code does not do what one would rely on

Each is a theorem with the suffix `_refuted` (or is stated in the theorem named).

* GeoPackage: with envelope type 0 the magic number is never checked (C06). The envelope is written minx, miny, maxx, maxy, not in the standard's order (C58).
* Extent.ContainsGeom starts from a zero extent, so the origin must be inside too (C20). Scaling infinite sides gives NaN (C22).
* Winding: rounding can change the orientation of a ring when it is rotated (C31), and RectifyPolygon can leave a ring wrongly wound; it reverses the caller's rings in place (C32).
* MVT: a flat outer ring turns its holes into polygons (C11); NaN attributes make a feature unencodable (C12); decoded tiles may hold two layers of one name (C13); RemoveFeature removes nothing (C14); hostile geometry crashes the decoder in seven ways (C15); int and uint attributes are written as empty values (C59); a line without points panics (C61); attributes are never decoded (C63); absent extent or type crashes the decoder (C64).
* cmp: the tolerance is relative away from zero, so a difference below it need not compare equal (C26); MultiLineString comparison is not symmetric, a second leftmost vertex changes the answer, comparing polygons reorders the caller's rings (C29); SetDefault is not atomic (C30).
* Simplification: with the default distance a closed line collapses to its first vertex and every closed ring vanishes (C33, C34).
* kd-tree: with coordinate differences below 2^-511 squares underflow and neighbours come out of order (C36).
* R-tree: Insert can panic when areas overflow (C37); abort only leaves the current leaf (C65); leaves of a bulk loaded tree share one array, so inserting overwrites objects (C66); k = 0 panics (C67); cancellation in the pruning bound loses the nearest neighbour (C68); after deletions Insert can panic and nodes can be below MinChildren (C69).
* slippy: FromBounds of the world at MaxZoom panics in make (C40); the column just below 180 degrees is 2^z, outside the grid (C70); NewTileMinMaxer compares a tile's extent with itself (C71).
* WKT: EMPTY geometries cannot be read back (C43); exponents are printed with '+', which the parser refuses, and precision is lost (C42); a decoded LINESTRING (1 1,1 1) cannot be encoded (C74); trailing text after a geometry is accepted (C73).
* GeoJSON: nil slices are written as null and reading null panics (C44, C75); encoding an open ring appends to the caller's ring and can overwrite its neighbour (C45); a null geometry is not supported (C76); an Extent is written as an open LineString.
* Intersection: AreLinesColinear calls parallel lines colinear and misses a segment inside another (C78); a shared last end point can be missed, and at large coordinates the point can be far from both segments (C79).
* Clipping: a segment through two corners is dropped, and a piece of one point can be returned (C80).
* The centroid is divided by the cross product of the last side instead of the area (C48).
* Circles: AsSegments(0) panics, (1) and (2) are not closed (C81); a circle can miss its own points, or have an infinite centre (C85); CircleFromPoints loops forever when differences overflow (C92).
* Triangles: the enclosing triangle of points beyond 2^53 is flat (C91).
* Lines: Line.ContainsPoint is a bounding box test, IsPointOnLineSegment refuses an end point and accepts NaN (C89); NormalizeUniqueLines can return a line twice (C90); an end point can be at positive distance (C88).
* Quad-edge: a loop stops the walk around a vertex (C77).
* Sweep: with connected set, crossings of tiny segments are skipped (C95).
* Ring: an index over one segment finds nothing and touching segments are missed at 2^38 (C99); ContainsPoint is wrong for the centre of an 8 m square at 10^7, just above the height of a vertex, and depends on the index at 2^38 (C100); Extent always contains the origin (C101).
* UTM: number 61 just before 180 E, zone 32 west of 6 E, zone 32X at (7 E, 84 N), letter I accepted (C102); grid letters panic near every 2000 km and below -180 (C104); two squares share a name (C105); longitudes below -180 are not normalised (C107).
* Walker: closed rings panic, a spike before a repeated vertex loses the whole ring, a vertex met three times stays twice (C110); a triangle given twice disappears, one whose third vertex is its first panics (C113).
* Hit map: an island in another polygon's hole is outside, with a clip box nothing but the origin is inside, rounding moves a point of a small square far from the origin out of it, NaN panics (C114).
* Makevalid: the segments repeat at the end of the result and may lie along each other (C115); cancellation gives a nil geometry without error (C117).
* PrepareGeo: a hole or polygon that shrinks to one pixel point panics, a one-point outer ring is skipped so that a hole takes its place, a line that shrinks comes back empty and cannot be encoded, a flat tile gives NaN (C121).
* pseudopolygon.Triangulate: a ring that repeats its first point at the end is always rejected; lines of a simple polygon may cross its sides; three colinear points in a row give the all-colinear error; results need not be Delaunay; lines of an inner ring are lost when two points are left (C125).
* Subdivision.Triangles(true): the outside of the graph is returned as a triangle when it has three sides; next to a face with four sides a triangle is reported again with the other orientation (C129).
* quadedge.ResolveEdge: with two opposite edges a point beyond the end of the starting edge gives the wrong edge; a lone edge and a point behind it give the colinear error; coincident edges are not reported although documented (C132).
* Subdivision.InsertSite returns false for the origin of the starting edge, which is a vertex; a point on the starting edge deletes that edge without replacing it, so the subdivision is lost behind a detached edge although the call returns true; points on the other frame sides are refused; the edge which locate finds by brute force is returned with false and never used (C138).
* Subdivision.InsertSite: with (100000,0), (-100000,0), (0,-100000) and (48320,87551) in a frame, the last point is outside the circle of the first three and the edge is swapped nevertheless, so that the triangulation is no longer Delaunay (C139).
* Subdivision.FindIntersectingEdges gives up after 21 rounds: InsertConstraint fails for a constraint between two vertices which crosses a zigzag of 24 points (C141; the limit of 21 is a theorem, the run with the zigzag is computed).
* Subdivision.InsertConstraint: with (10,0), (30,0), (20,5), (20,-5), (0,0) and (40,0) in a frame, the constraint (0,0)-(40,0) is taken to exist because there are edges in its direction at both ends. No error is returned, and the edge (20,-5)-(20,5) still crosses it (C143).
* subdivision.NewForPoints rounds the points in the slice of its caller to three decimals (C145). Its comment says that it sorts them; it does not.
* RoundToPrec: the product overflows for large values, which are rounded to an infinity. Zero is handled at the beginning so that -0 is not returned, but small negative values still are rounded to -0 (C146).
* Order.ThreePointsAreColinear compares an area with a tolerance for lengths: the right triangle (0,0), (1/1024,0), (0,1/1024) is reported to be collinear (C148).
* Triangle.OppositeVertex returns a corner of its own triangle, not of the other one. The comment of SharedEdge says that the triangle is on the left of the edge it returns; it is on the right (C151, C152).
* delaunay.GeomConstrained and Constrained ignore their constraints unless the environment variable TEGOLA_MAKEVALID contains CONSTRAINED (C155). Constrained.Triangles appends the ends of the constraints to the array of its caller and rounds the points in it (C156).
* Importing planar/triangulate/delaunay replaces the default comparator of package cmp for the whole program (cmp.go: SetDefault). Not a theorem.
* quadedge.Validate accepts vertices whose edges are in the wrong order, go round twice or cover each other (C158): it counts the turns in each direction, and it looks for crossings among copies of one edge (`segs = append(segs, e.AsLine())` where `ee` is meant).
* PseudoPolygonPointCollector.AddPoint does not enter the points it adds into seen, and insertEdge never returns ErrDidNotFindToFrom: the loop which tries edges again is dead code.

## Status of each property

`proved`: the full statement in `properties.jsonl`.  `partial`: part of it, or refuted as stated.

| id | title | status | what is proved |
|---|---|---|---|
| C01 | WKB round trip | proved | all kinds, any nesting, both byte orders, bit-exact; hypotheses: counts fit a uint32, rings open, first ring point not NaN |
| C02 | WKB decoding is exact about where a geometry ends | proved | exact end for any suffix; every proper prefix is io.EOF/ErrUnexpectedEOF; decoder total on arbitrary bytes |
| C03 | WKB encoder closes rings, decoder opens them | proved | encoder output equals an independently written OGC layout with closed rings |
| C04 | WKB encoding fails exactly on unknown geometry | proved | iff over arbitrary trees |
| C05 | GeoPackage binary header round trip | proved | all envelopes, flags, byte orders, SRS ids; independent layout; any trailing bytes |
| C06 | GeoPackage decoding rejects foreign data | partial | REFUTED as stated: with envelope type 0 the magic number is never checked (C06_magic_checked_refuted); exact outcome of the decoder on every byte string is proved, and for every other envelope type the magic is checked |
| C07 | GeoPackage geometry blob round trip | proved | all kinds; envelope equals the extent or NaN when every coordinate pair has a NaN; decoding never panics on any bytes |
| C08 | MVT zig-zag integers round trip | proved | iff int32; every uint32 is an encoding |
| C09 | MVT command integers round trip | proved | all ids and counts below 2^29 |
| C10 | MVT geometry round trip | proved | all point and line geometries whose steps fit 32 bits; lines need two points, multi-geometries with one member decode to the member |
| C11 | MVT polygon rings survive the tile | partial | round trip proved for every polygon whose outer ring has area; REFUTED for a zero-area outer ring with holes (C11_flat_outer_ring_refuted) |
| C12 | MVT tag tables are lossless | partial | proved for all maps, iteration orders and supported values except NaN; REFUTED for NaN attributes (the feature cannot be encoded) |
| C13 | A tile never holds two layers with the same name | proved | all histories of AddLayers from the empty tile, exact effect of one call; tiles made by the decoder are not checked (C13_decoded_tile_refuted) |
| C14 | Layer feature list operations | partial | REFUTED: RemoveFeature computes the right list and drops it, so it never removes anything |
| C15 | MVT geometry decoding never crashes on hostile tiles | partial | REFUTED: seven crashing inputs; points never crash; every crashing input is characterised (C15_panic_cases) |
| C16 | The extent of points is the least box containing them | proved | bit-level floats, infinities included, NaN-free points |
| C17 | Growing an extent | proved | all histories of Add/AddPoints/AddPointers/AddGeometry; least upper bound, and bit-exact independence of order and repetition |
| C18 | Extent.Contains is set inclusion | proved | inclusion iff for non-empty argument; order laws; nil |
| C19 | Extent.Intersect is set intersection | proved | membership iff; false iff no common interior point over the reals (infinite sides allowed); commutative up to float equality |
| C20 | Extent.ContainsGeom agrees with point containment | partial | REFUTED as stated: ContainsGeom grows a zero extent, so the origin must be contained too (C20_contains_geom_refuted); the exact behaviour of the code is proved for every extent and geometry (C20_contains_geom_exact) |
| C21 | Extent from geometry | proved | sides equal as float64 values (signs of zero may differ); nil iff no coordinates |
| C22 | Scaling and expanding keep extents well formed | proved | IEEE rounding and overflow included, finite sides and factors; for infinite sides the claim is refuted (NaN sides) |
| C23 | GetCoordinates and ExtractLines traverse the whole geometry | proved | all trees; iff for the error |
| C24 | Clone and ApplyToPoints preserve structure | proved | any stateful f; clone has fresh pairwise distinct storage; Collections are rejected by both functions |
| C25 | AsSegments gives back the line | proved | LineString, MultiLineString, Polygon, MultiPolygon |
| C26 | Float comparison | partial | reflexive, symmetric, infinities, exact characterisation by distance in floats and by relative difference proved for all float64; 'a difference below the tolerance compares equal' is REFUTED (the tolerance is relative away from zero) |
| C27 | Point ordering is a strict weak order on exact coordinates | proved | all points without NaN |
| C28 | Rotating a ring to its leftmost point | proved | all rings and indexes; indexes out of range panic |
| C29 | Geometry equality is an equivalence at least on the obvious cases | partial | reflexive for all geometries; matching of parts; REFUTED: MultiLineString comparison is not symmetric, starting point matters when two vertices are leftmost, comparing polygons reorders the caller's rings |
| C30 | SetDefault hands over the comparator atomically | partial | REFUTED: SetDefault is a load and a store, overlapping calls are handed the same comparator; what holds for every schedule is proved |
| C31 | Ring orientation laws | partial | proved for every ring on a binary grid with room in 53 bits (all integer tile coordinates); for arbitrary float64 rings invariance is REFUTED by rounding counterexamples |
| C32 | RectifyPolygon yields correctly wound rings | partial | kept rings, nil result and effect on the argument proved for all float64 rings; winding of the result for all grid rings; for arbitrary float64 rings REFUTED by a rounding counterexample |
| C33 | Douglas-Peucker keeps endpoints, order and tolerance | proved | every distance function, tolerance (NaN included) and cancellation point; subsequence, end points, tolerance, farthest-first splitting; with the default distance a closed line collapses to its first vertex (C33_closed_line_collapses) |
| C34 | Simplify preserves geometry structure | proved | every simplifier, with or without state; a ring reduced to at most two points is replaced by nil; with the default Douglas-Peucker every explicitly closed ring vanishes (C34_closed_rings_vanish) |
| C35 | KD-tree insertion | proved | every insertion history, over any stored point type; boxes for points without NaN |
| C36 | KD-tree nearest neighbours come in order | partial | order and completeness proved for every distance function that bounds the items of each box from below, and that EuclideanDistance (rounding and overflow included) is one when coordinate differences are zero or at least 2^-511; REFUTED below that: squares underflow and distances come out of order |
| C37 | R-tree search is exact | partial | contents, size, boxes, balance, node sizes and exact search proved for every insertion history that returns, in any dimension, MinChildren included; that Insert returns is proved for coordinates up to 2^m with d*(m+1) <= 1022 and REFUTED beyond (areas overflow, nil entry chosen) |
| C38 | R-tree bulk loading is exact | proved | any sort, any object list; the float computations of height and slices are arguments of the theorem: exactness for any value, balance for the paper's values |
| C39 | Tile families | proved | every tile, zoom and callback, as long as columns and rows of the descendants fit in an int |
| C40 | FromBounds covers the bounds | partial | rectangle, distinctness and column coverage proved whenever the list fits the address space; REFUTED for the world at MaxZoom: the slice is larger than the address space and make panics |
| C41 | Tile order is a strict total order | proved | every triple of tiles |
| C42 | WKT round trip | partial | proved for every printer and parser of numbers that agree on the coordinates, and for strconv (bit exact, correctly rounded) with coordinates that print without an exponent; REFUTED outside: an exponent is printed with '+', which the decoder refuses (1e+10), and digits beyond the precision are lost |
| C43 | WKT empty geometries | partial | REFUTED for every empty geometry: it is written as EMPTY (or with empty parts) and the decoder refuses the text |
| C44 | GeoJSON round trip | partial | proved at the level of JSON values for every float printer whose text reads back exactly (what strconv documents), ids and properties included; REFUTED for nil slices: they are written as null and reading them panics |
| C45 | GeoJSON encoding leaves its input alone | partial | REFUTED: an open ring of the caller gets an additional point, and rings cut from one array overwrite each other; the exact effect is proved |
| C46 | Segment intersection is symmetric, exact on a grid, and on both segments | proved | symmetry for all words; exactness on grids (differences up to 2^25 steps), the point for coordinates up to 2^16 steps; rounding included |
| C47 | Clipping points and lines | proved | order, runs, totality and points for all words and contexts; positions for boxes and lines on a grid of up to 2^16 steps, rounding included; exactness for segments that pass no corner |
| C48 | The centroid is the centre of mass | partial | REFUTED: the sum is divided by the cross product of the last side instead of the area; right for triangles that start at the origin, infinite for closed rings there, outside the bounding box elsewhere; what is computed is proved (C48_formula) |
| C49 | Quad-edge algebra holds in every reachable structure | proved | every history of New, EndPoints, Splice of edges of one kind, Connect (with any choice of ResolveEdge), Swap and Delete; nil edges are not modelled |
| C50 | Splice is its own inverse and joins or splits rings | proved | every history, every pair of edges of one kind |
| C51 | Unique edge identifiers under concurrency | proved | every interleaving of fewer than 2^64 creations |
| C52 | Cutting a ring | proved |  |
| C53 | UTM zones | proved | Float64 exactly; what happens at 84 N, next to 180 E and within 2^-43 degrees of a side is C102. |
| C54 | Hit maps label points by the rings of the polygons | proved | Integer coordinates up to 512, where the comparators of Ring.ContainsPoint are exact; what is expected beyond is C114. |
| C55 | Destructure cuts polygons into segments that meet at ends | proved | Integer coordinates up to 512 and crossings at integers, where no point is rounded. The sweep, the cutting, the clip box and unique are all modelled; the result also repeats segments (C115). |
| C56 | Circles approximated by segments | proved | the positions of the points (math.Cos, math.Sin) are arbitrary |
| C57 | WKB decoder accepts every well-formed layout | proved | decoder against an independent relational layout with per-element byte order: accepts every well-formed file and only those |
| C58 | GeoPackage envelope has the standard's order | partial | REFUTED: the code writes minx,miny,maxx,maxy (C58_envelope_order_exact) |
| C59 | MVT attribute values keep their value | partial | proved for every type but int and uint, which are REFUTED: written as empty values |
| C60 | MVT geometry integers follow the tile specification | proved | independent wire specification |
| C61 | MVT geometry encoding fails cleanly | partial | REFUTED for panics: encoding a line without points panics, and nothing else does (C61_encode_panic_iff); errors characterised exactly |
| C62 | MVT features of a collection | proved | any nesting |
| C63 | A tile survives encoding and decoding | partial | names, extents, ids and geometries proved for all tiles and iteration orders; attributes REFUTED: the decoder never restores them |
| C64 | Decoding a tile never crashes on absent optional fields | partial | REFUTED: absent extent or type crashes; all crash causes characterised |
| C65 | R-tree search limits and filters | partial | limit and non-aborting filters proved exactly; abort REFUTED: it only leaves the current leaf |
| C66 | Inserting into a bulk loaded R-tree keeps the objects | partial | REFUTED: leaves of a bulk loaded tree share one array, the new entry overwrites the first entry of the next leaf (internal package; the library itself never inserts after bulk loading) |
| C67 | R-tree k nearest neighbours | partial | proved for k >= 1 for every insertion history with finite coordinates, rounding and overflow included, distances as computed by the library; k = 0 REFUTED (panics) |
| C68 | R-tree nearest neighbour | partial | REFUTED for trees with several leaves: cancellation in the pruning bound; membership and termination proved for all trees, exactness for one leaf |
| C69 | R-tree deletion | partial | contents, answers, exact search, balance and MaxChildren proved for every history that returns; REFUTED: an Insert after deletions can panic, and deletions can leave nodes below MinChildren |
| C70 | Columns of longitudes | partial | round trip, exactness of sides, monotonicity and column up to 2^-18 of a tile proved, rounding included; REFUTED just below 180 degrees (and left of every right side by 1e-6 pixels): the column is 2^z, outside the grid |
| C71 | NewTileMinMaxer contains the extent | partial | REFUTED: the test compares the tile's extent with itself, so the MaxZoom tile of the lower left corner is always returned (C71_exact) |
| C72 | Pixel ratio | proved | every zoom and dimension; latitude functions arbitrary |
| C73 | WKT decoder is total | proved | every byte string; numbers by the modelled strconv.ParseFloat |
| C74 | Decoded WKT can be encoded again | partial | REFUTED: LINESTRING (1 1,1 1) is decoded and cannot be encoded; proved for decoded geometries with enough distinct points |
| C75 | GeoJSON decoding never panics | partial | REFUTED: null for type, coordinates, geometries or a member of geometries is a nil dereference; proved to be the only cause, and that decoding ends |
| C76 | GeoJSON features without geometry | partial | REFUTED: a feature with nil geometry is never written, and a null geometry is refused by the reader |
| C77 | Walking around a vertex | partial | proved when no quad-edge has both ends at the vertex; REFUTED with a loop: its second end stops the walk; FindONextDest proved |
| C78 | AreLinesColinear recognises overlapping lines | partial | REFUTED: an end point in the bounding box suffices, so parallel lines apart are called colinear, and a segment inside the other is missed in one order; exact behaviour on grids proved |
| C79 | Shared end points are found and points are near, for coordinates of any size | partial | proved for shared points that are the first of one segment; REFUTED for shared last points and for the position of the point at large coordinates |
| C80 | Clipping loses nothing in the box | partial | REFUTED: a segment through two corners is dropped, and a line that leaves from a vertex on a side gives a piece of one point; true for lines that pass no corner (C47_exact) |
| C81 | Circles approximated by the default number of segments | partial | REFUTED: AsSegments(0) panics, AsSegments(1) and (2) are not closed; the points are right |
| C82 | Area, centre and third vertex of a triangle | proved | bit exact, on grids |
| C83 | The enclosing triangle encloses | proved | rounding included, for coordinates up to 2^40 |
| C84 | CircleFromPoints returns | proved | finite points with finite differences in y |
| C85 | The circle through three points | partial | true in exact arithmetic (the same code over the reals); REFUTED for float64: a circle can miss its own point by rounding, or have an infinite centre |
| C86 | Points on horizontal, vertical and integer-slope segments | proved | bit exact |
| C87 | Unique lines | proved | any sorting routine that sorts strict weak orders |
| C88 | Distances | partial | points proved; segments proved in exact arithmetic (the same code over the reals), no bound of the rounding error yet; with float64 an end point can be at a positive distance (C88_end_refuted) |
| C89 | Points on arbitrary segments | partial | REFUTED: Line.ContainsPoint is a bounding box test; IsPointOnLineSegment can refuse an end point and accepts NaN |
| C90 | Unique lines, any tolerance | partial | REFUTED with Go's insertion sort and the default comparator |
| C91 | The enclosing triangle of far points | partial | REFUTED: beyond 2^53 the vertices are on one line |
| C92 | CircleFromPoints returns for all finite points | partial | REFUTED: it loops forever if the differences in y overflow and the points are vertical pairs |
| C93 | FindIntersects calls back each pair once, and stops when told | proved | Calls characterised for every callback; cancellation for every context. NaN excluded; the sort is any routine that sorts. |
| C94 | FindIntersects finds exactly the crossings | proved | On grids where C46 makes SegmentIntersect exact. |
| C95 | With connected set only shared end points are skipped | partial | REFUTED: two segments of length 1e-9 crossing in the middle are skipped, their ends being equal within the tolerance (C95_tiny_refuted). What is skipped is stated exactly in C93. |
| C96 | Segment search returns the segments near the query, ascending, and never misses one that touches it | proved | With at least two segments and coordinates up to 2^30; the order in which sort.Sort leaves equal entries and the numbers NewTree computes in floating point are parameters. |
| C97 | Ring.ContainsPoint is the even-odd rule on integer coordinates | proved | Integer coordinates up to 512; the exact even-odd rule, including rings with an index. All scales: C100. |
| C98 | Ring.ContainsPoint divides the plane: constant on connected parts, false outside, changed by crossing a side | proved | Consequences of C97 and of the even-odd rule proved over the reals. |
| C99 | Segment search misses no touching segment, for any number of segments and any coordinates | partial | REFUTED. An index over one segment is nil and finds nothing; at 2^38 the 0.00001 added to boxes is lost and a segment touching the query is missed. C96 is the true part. |
| C100 | Ring.ContainsPoint is the even-odd rule for all finite coordinates | partial | REFUTED. The centre of an 8 m square at 10^7 is outside (relative tolerance); a point 2^-30 above the height of a vertex is outside; at 2^38 the answer changes when points are added to the sides (index). C97 is the true part. |
| C101 | Ring.Extent is the smallest box around the points of the ring | partial | REFUTED. The box starts as the zero extent and so always contains the origin (C101_origin_refuted); C101_least says what it is. |
| C102 | Exactly the zones of the grid | partial | REFUTED. Number 61 just before 180 E, zone 32 west of 6 E, zone 32X at (7 E, 84 N), IsValid accepts letter I. C53 is the true part. |
| C103 | Central meridians | proved |  |
| C104 | FromLngLat with military grid letters does not panic | partial | REFUTED. Panics on the first kilometre of every 2000 km from the equator (odd zones north, even zones south), and for longitudes below -180; C104_panic_partial says exactly when, for any cosine routine with values in [0,1] and at most 3/5 from 56 N on. |
| C105 | The letters name a square | partial | REFUTED. The table has X twice in the eastern letters of zones divisible by three. |
| C106 | Longitudes are brought into range | proved | The lower bound -180-2^-30 covers rounding of the number of turns. |
| C107 | All longitudes are brought into range | partial | REFUTED. Longitudes below -180 are left as they are (C107_west_refuted); C106 is the true part. |
| C108 | Degrees, minutes, seconds | proved |  |
| C109 | A walked ring becomes rings | proved | The area for integer coordinates up to 4096, where the comparators are exact. |
| C110 | No ring is lost in cutting | partial | REFUTED. Closed rings panic (C110_closed_refuted, a theorem about all of them whose first vertex is leftmost), a spike before a repeated vertex loses the whole ring, a vertex met three times stays twice. C109 is the true part. |
| C111 | The walk around triangles | proved |  |
| C112 | Every triangle ends up in one polygon | proved | A component may still yield no polygon when PolygonForRing loses its ring (C110); the statement says so. |
| C113 | MultiPolygon accepts any triangles | partial | REFUTED. A triangle given twice disappears; a triangle whose third vertex is its first panics. C112 is the true part. |
| C114 | A point of the polygons is labelled inside | partial | REFUTED. An island in another polygon's hole is outside; with a clip box nothing but the origin is inside; 20-bit rounding moves the centre of a 6 m square at 10^7 out of it; NaN panics; the extent reaches to the origin. C54 is the true part. |
| C115 | Every segment once | partial | REFUTED. unique does not shorten its caller's slice: the end of the result repeats segments, even ones that were there once. A vertex in the middle of a straight side leaves a segment along two others. C55 is the true part. |
| C116 | Makevalid keeps the triangles in the polygons | proved | The triangulation (delaunay.GeomConstrained) is an argument: what it returns is assumed to be equally turned triangles with integer centres. |
| C117 | Makevalid returns a geometry or an error | partial | REFUTED. If the context is cancelled Destructure returns (nil, nil), and Makevalid a nil *MultiPolygon, true and no error; also if no triangle is kept. |
| C118 | PrepareGeo gives the pixel of a point | proved | Accuracy for values between 2^-400 and 2^400; corners, containment and order for every finite tile whose spans do not overflow; exactness on integer tiles with sides a power of two. |
| C119 | PrepareGeo keeps a line, without repeated points | proved | Thinning for every line and tile; the round trip through the encoder on integer tiles with pixels up to 2^20. |
| C120 | PrepareGeo keeps the rings of a polygon | proved | Rings, panics and multi-polygons for every input; the round trip on integer tiles for rings whose float64 orientation is exact. |
| C121 | PrepareGeo handles every geometry of a tile | partial | REFUTED. A hole, or a polygon of a multi-polygon, whose pixels fall together makes PrepareGeo panic (ln[0] of a nil line); an outer ring of one point is skipped and the hole takes its place; a line that shrinks to a point comes back empty and encoding it panics; a tile of no width gives NaN. C118 to C120 are the true part. |
| C122 | Triangulate returns a triangulation of the polygon | proved | For every result on distinct finite points; crossing is in the order of the points (geometric crossing: C124, C125). |
| C123 | Triangulate ends, without a panic, with lines between the given points | proved | Ending and joining for all finite points; freedom from panics for integer points up to 2^16, at most 2^18 of them. |
| C124 | Convex polygons are always triangulated | proved | Integer points up to 2^16, at most 2^18 of them, where the float64 orientation is exact. |
| C125 | Every simple polygon is triangulated within itself, as Delaunay requires | partial | REFUTED. A ring which ends in its first point is always rejected as too small; lines of a simple polygon cross its sides; three colinear points in a row give the all-colinear error for a polygon with area; the triangles of a convex polygon need not be Delaunay; the lines of an inner ring are lost if only two points are left. C122 to C124 are the true part. |
| C126 | Walking over the edges of a subdivision visits each one once | proved |  |
| C127 | The vertex index finds an edge out of every vertex | proved | For points which the rounding and the comparison keep apart. |
| C128 | The triangles of a triangulation are its faces | proved | All faces triangles, no loops, one point for one vertex; includes the outside face (C129). |
| C129 | Triangles returns only triangles of the plane, each once | partial | REFUTED. Triangles(true) of a single triangle returns the outside as a second one; next to a face of four sides a triangle is reported again the other way round. C128 is the true part. |
| C130 | ResolveEdge finds the pair of edges between which a point lies | proved | Integer coordinates up to 2^20, where the float64 cross products are exact. |
| C131 | ResolveEdge reports points in the direction of an edge | proved | Integer coordinates up to 2^20; the exception for opposite edges is C132. |
| C132 | The documented table of ResolveEdge holds without exception | partial | REFUTED. With two opposite edges a point beyond the end of the starting edge gives the other edge; a lone edge and a point behind it give the colinear error; coincident edges give no error. C130 and C131 are the true part. |
| C133 | RightOf tells the side of an edge | proved | Integer coordinates up to 2^20. |
| C134 | InsertSite keeps a triangulation and adds exactly the point | proved | Integer coordinates up to 2^20. The panic for an edge with the same corner on both sides is an allowed outcome. That the result is Delaunay is not claimed: the circle test rounds. C134_within shows that the condition for points on an edge holds between two counter-clockwise triangles. |
| C135 | Every sequence of insertions yields a triangulation of the inserted points | proved | By induction on the calls; the exception for points on the starting edge is C138. |
| C136 | New makes a triangle | proved | Conditional on New returning a starting edge; it panics when ResolveEdge reports an error for the centre. |
| C137 | locate finds the triangle which holds the point | proved | Integer coordinates up to 2^20. |
| C138 | InsertSite accepts every point of the frame and reports the truth | partial | REFUTED. The origin of the starting edge gives false although it is a vertex; a point on the starting edge gives true and the starting edge is then detached from the graph; points on the other frame sides give false. C134 and C135 are the true part. |
| C139 | InsertSite keeps a Delaunay triangulation | partial | REFUTED for points which are almost on one circle: the circle test accepts points outside by up to one part in 10^9 and the edge is swapped. Nothing is proved about triangulations without such points. |
| C140 | FindIntersectingEdges returns edges which cross the segment | partial | What is returned crosses the segment; it is not proved that every edge which crosses it is returned. |
| C141 | A constraint between two vertices can be inserted | partial | The property does not hold: after 21 rounds FindIntersectingEdges returns an error, and the constraint is not inserted. Proved is the limit of 21 edges. That InsertConstraint fails across a zigzag of 24 points is computed, not a theorem: the kernel takes too long to check the run without its virtual machine. |
| C142 | InsertConstraint keeps the graph and its index | proved |  |
| C143 | No edge crosses a constraint after it was inserted | partial | REFUTED: a constraint which begins and ends with the direction of an edge is taken to exist. Nothing is proved about constraints without vertices on them. |
| C144 | Classify says where a point lies | proved |  |
| C145 | NewForPoints leaves the points of its caller alone | partial | REFUTED: the points are rounded to three decimals in the slice of the caller. |
| C146 | RoundToPrec rounds to the given number of decimals | partial | Proved while /v/ * 10^p is at most 2^40, but for the sign of zero. REFUTED otherwise: 2^1023 is rounded to an infinity, and -0.0001 to the negative zero. |
| C147 | Hull is the smaller region of the sphere between two points | proved |  |
| C148 | ThreePointsAreColinear tells whether three points are on a line | partial | Proved for integers. REFUTED for small triangles: (0,0), (1/1024,0), (0,1/1024) are reported to be collinear. |
| C149 | AsGeom returns the corners of the triangle | proved |  |
| C150 | IntersectsPoint tells whether a point is in the triangle | proved |  |
| C151 | SharedEdge returns the side which two triangles share | proved |  |
| C152 | OppositeVertex returns the vertex of the other triangle | partial | REFUTED: the result always is a corner of the first triangle. |
| C153 | OppositeTriangle returns the triangle opposite to a corner | proved |  |
| C154 | Repeated points and constraints without length do not matter | proved |  |
| C155 | A constraint is a side of the triangles | partial | REFUTED: unless an environment variable is set the constraints are ignored. |
| C156 | Constrained.Triangles leaves the memory of its caller alone | partial | REFUTED: constraints are appended to the array of the caller, and the points are rounded in it. Proved if there are constraints and no room for them. |
| C157 | Validate accepts a good vertex | proved |  |
| C158 | Validate rejects a bad vertex | partial | REFUTED: the directions are only counted, and the line of the first edge is compared with itself instead of the other edges. |
