{
 "claims": [
  {
   "property": "C01",
   "status": "partial",
   "theorems": [
    "C01_index_independent_partial",
    "C01_even_odd_partial",
    "C01_refuted_unclosed",
    "C01_refuted_ystripes_top",
    "C01_refuted_ystripes_flat"
   ],
   "note": "The full statement is false of the code: a ring whose first point is not repeated loses its closing segment in the last index leaf; y-stripes drop horizontal segments on the top edge; a flat ring makes y-stripes convert NaN to int. Proved for all other cases (hypothesis index_safe)."
  },
  {
   "property": "C02",
   "status": "partial",
   "theorems": [
    "C02_rect_search_partial",
    "C02_refuted"
   ],
   "note": "False for indexed rings whose first point is not repeated and whose point count is not a multiple of the spread (refuted by witness); proved for lines and all other rings."
  },
  {
   "property": "C03",
   "status": "partial",
   "theorems": [
    "C03_pairs_partial",
    "C03_pairs_exact_partial",
    "C03_huge_refuted",
    "C03_order_refuted"
   ],
   "note": "False as stated: with both series indexed by trees of different heights and coordinates beyond the float range pairs are missed, and the segment test is not symmetric while its argument order depends on which series is indexed. Proved for the search_safe series of C02: each pair the test accepts reported once, in a fixed order, until the callback answers false; exactly the pairs with a common point on integer coordinates up to 2^24, for all index kinds."
  },
  {
   "property": "C04",
   "status": "partial",
   "theorems": [
    "C04_nearest",
    "C04_nearest_inside_partial",
    "C04_refuted_unclosed"
   ],
   "note": "Proved for every series, index, allocator, stopping point and callbacks (functions of their argument and *more) when the rectangle distance bounds the segments filed below the rectangle. With 'inside the rectangle' instead it needs an index that covers its segments (closed ring, coordinates in float range); for an unclosed ring the closing segment comes too late (C04_refuted_unclosed)."
  },
  {
   "property": "C05",
   "status": "partial",
   "theorems": [
    "C05_small",
    "C05_indexed_partial",
    "C05_any_order_partial",
    "C05_huge_refuted",
    "C05_tiny_refuted"
   ],
   "note": "False as stated: with 64 or more children the search compares the query with boxes kept as floats, which are infinite for huge coordinates and 0 for tiny ones (both refuted by witness). Proved without restriction for fewer than 64 children, and with the index for coordinates that are 0 or between 2^-125 and the largest float."
  },
  {
   "property": "C06",
   "status": "partial",
   "theorems": [
    "C06_series_rect",
    "C06_geometry_partial",
    "C06_extra_coordinates_partial",
    "C06_empty_refuted"
   ],
   "note": "False as stated: an empty part counts as the point (0,0) and enlarges the rectangle (C06_empty_refuted). Proved for rings, lines, and geometries of any nesting without an empty part; also the Z and M bounds of tg_geom_fullrect."
  },
  {
   "property": "C07",
   "status": "proved",
   "theorems": [
    "C07_expand_commutative",
    "C07_expand_associative",
    "C07_expand_idempotent",
    "C07_expand_least",
    "C07_expand_point_least",
    "C07_intersects_symmetric",
    "C07_intersects_common_point",
    "C07_covers_point",
    "C07_covers_partial_order",
    "C07_covers_subset"
   ],
   "note": "Equality of rectangles is numeric equality of the sides (0 and -0 equal). No NaN."
  },
  {
   "property": "C08",
   "status": "partial",
   "theorems": [
    "C08_shared_endpoint",
    "C08_symmetric_partial",
    "C08_symmetric_refuted",
    "C08_direction_refuted",
    "C08_direction_second_refuted"
   ],
   "note": "Shared endpoint: proved for all segments without NaN. Order and direction independence: proved for integer coordinates up to 2^24; refuted for general doubles (rounding of the collinearity and parameter tests)."
  },
  {
   "property": "C09",
   "status": "proved",
   "theorems": [
    "C09_intersects_exact",
    "C09_tiny_refuted"
   ],
   "note": "Proved as stated. C09_tiny_refuted shows it does not extend to all doubles (1/rxs overflows for coordinates near 1e-160)."
  },
  {
   "property": "C10",
   "status": "proved",
   "theorems": [
    "C10_covers_exact",
    "C10_covers_exact_24",
    "C10_ray_exact",
    "C10_ring_even_odd"
   ],
   "note": "Proved up to 2^24, more than claimed. The ring statement has the hypothesis index_safe of C01 for indexed rings; it is always met without an index."
  },
  {
   "property": "C11",
   "status": "proved",
   "theorems": [
    "C11_history",
    "C11_history_noheap",
    "C11_contents"
   ],
   "note": "All histories of constructors, clone and free over arbitrarily nested objects, any allocations failing: no undefined behaviour, allocated = reachable from held references, each count = number of references. C11_history_noheap adds copies and objects marked noheap, with unindexed rings. Counts are unbounded integers (no overflow)."
  },
  {
   "property": "C12",
   "status": "partial",
   "theorems": [
    "C12_threads",
    "C12_all_freed",
    "C12_sequential",
    "C12_noatomics_refuted"
   ],
   "note": "With atomics: proved for any number of threads, any schedule of the atomic steps and any shared nested objects (no undefined behaviour, held objects stay intact, calls can always finish, then allocated = reachable with exact counts; the steps of one thread equal the sequential functions). Without atomics the claim is false: *rc++ and *rc-- move the pointer, the count stays 0 and rc_release reads before the object (C12_noatomics_refuted). Sequentially consistent counters, see DESIGN.md."
  },
  {
   "property": "C13",
   "status": "partial",
   "theorems": [
    "C13_heap_clone",
    "C13_noheap_clone_partial",
    "C13_noheap_free",
    "C13_ring_index_refuted"
   ],
   "note": "Heap clone proved. False as stated for a noheap ring with an index: the clone's index pointer still points into the original (C13_ring_index_refuted). Proved for objects without indexed rings and multis with fewer than 64 children: independent copy, unchanged by every later history."
  },
  {
   "property": "C14",
   "status": "partial",
   "theorems": [
    "C14_failure_partial",
    "C14_noheap_refuted"
   ],
   "note": "Constructors, clone and copy: any failing allocation gives NULL and restores memory and every count. False for objects marked noheap: tg_poly_new ignores the failed copy of a ring (C14_noheap_refuted). The parsers are not covered."
  },
  {
   "property": "C15",
   "status": "partial",
   "theorems": [
    "C15_parsed_round_trip_partial",
    "C15_contents_round_trip_partial",
    "C15_refuted"
   ],
   "note": "False as stated: a multi geometry with an empty child parses to a geometry with a NULL child that tg_geom_wkb dereferences (C15_refuted). Proved: everything the WKB parser produces without NULL child round trips to the very same geometry; any geometry with valid contents is written as an encoding of its contents and parsed back with the same contents."
  },
  {
   "property": "C16",
   "status": "partial",
   "theorems": [
    "C16_in_bounds_partial",
    "C16_ystripes_partial",
    "C16_refuted"
   ],
   "note": "False as stated: count*2*8 wraps in 32 bits and 9 bytes make the parser read beyond the input (C16_refuted). Proved for all byte strings without a wrapping count."
  },
  {
   "property": "C17",
   "status": "proved",
   "theorems": [
    "C17_byte_order"
   ],
   "note": "Any two encodings (byte order chosen at every header) of the same readable contents parse to the same geometry."
  },
  {
   "property": "C18",
   "status": "proved",
   "theorems": [
    "C18_same_as_binary",
    "C18_round_trip",
    "C18_rejects",
    "C18_complete"
   ],
   "note": "Hex text of either case is read as the bytes it spells, with the same result as the WKB or GeoBIN reader, for every environment and index option. Text that is not hex gives an error geometry. The hex writer writes exactly the upper case spelling of the WKB writer under the same cut off rule."
  },
  {
   "property": "C19",
   "status": "partial",
   "theorems": [
    "C19_round_trip_partial",
    "C19_parsed_round_trip_partial",
    "C19_reads_partial",
    "C19_refuted"
   ],
   "note": "False as stated: extra JSON and the feature mark of the children of a geometry collection are lost (C19_refuted). Proved for every value that stands for an object: geometry, feature, collections of features to any depth, with extra JSON; and everything the GeoBIN parser produces without error and NULL children round trips to the very same value."
  },
  {
   "property": "C20",
   "status": "partial",
   "theorems": [
    "C20_in_bounds_partial",
    "C20_plain_partial",
    "C20_refuted"
   ],
   "note": "False as stated: a collection of features with a feature of an unknown WKB type is accepted (C20_refuted), and the count wrap of C16 applies. Proved: defined for all bytes without a wrapping count; error or error free in full when the first byte is not 4, and up to error features otherwise."
  },
  {
   "property": "C21",
   "status": "partial",
   "theorems": [
    "C21_readers_partial",
    "C21_parsed_partial",
    "C21_any_bytes_partial",
    "C21_overflow_refuted",
    "C21_empty_refuted",
    "C21_point_refuted"
   ],
   "note": "False as stated in three ways: a second byte above four overflows the arrays, POINT EMPTY reads as NaN, and the center of a feature point above half the largest double is infinite. Proved in all other cases."
  },
  {
   "property": "C22",
   "status": "proved",
   "theorems": [
    "C22_wkt",
    "C22_geojson",
    "C22_wkb",
    "C22_wkb_defined",
    "C22_geobin",
    "C22_hex"
   ],
   "note": "Every writer and every buffer. The writers behave the same for every buffer: undefined, or one text (or byte string) of which every call stores what fits and returns the length. The text writers are undefined only when they would follow a NULL, as in a collection with a NULL child. Geometries hold 64-bit doubles and, for the binary writers, rings built by the ring constructors."
  },
  {
   "property": "C23",
   "status": "partial",
   "theorems": [
    "C23_in_bounds",
    "C23_accepted_texts_partial",
    "C23_rfc_partial",
    "C23_accepts_more_refuted",
    "C23_accepts_less_refuted"
   ],
   "note": "False as stated: unfinished escapes and overlong UTF-8 are accepted, U+10FFFF is not. Proved: exact grammar of accepted texts, never reads outside the text, equivalence with RFC 8259 for texts with well formed escapes, valid UTF-8 and without U+10FFFF."
  },
  {
   "property": "C24",
   "status": "partial",
   "theorems": [
    "C24_escape_valid",
    "C24_round_trip_partial",
    "C24_refuted"
   ],
   "note": "Escaping any byte string gives an RFC 8259 string literal which the library's own check accepts, within any buffer (count and terminating zero included). Decoding gives back the input for every valid UTF-8 text without U+10FFFF. For U+10FFFF the claim is false: it becomes four replacement characters (C24_refuted)."
  },
  {
   "property": "C25",
   "status": "partial",
   "theorems": [
    "C25_root",
    "C25_type",
    "C25_parts_exist",
    "C25_array_get",
    "C25_array_count",
    "C25_iterate",
    "C25_object_get_partial",
    "C25_refuted"
   ],
   "note": "Proved for every RFC 8259 text: the root, types, array elements, counts and iteration. Members by name: proved when no key has a surrogate pair that is decoded wrongly (see C44); false for such keys. The first of several members of one name is found."
  },
  {
   "property": "C26",
   "status": "partial",
   "theorems": [
    "C26_wkb_too_deep_partial",
    "C26_wkb_bounded_partial",
    "C26_json_too_deep_partial",
    "C26_geobin_too_deep_partial",
    "C26_geobin_bounded_partial",
    "C26_wkt_bounded_partial",
    "C26_wkt_too_deep_partial",
    "C26_geojson_refuted",
    "C26_geojson_bounded_partial",
    "C26_geojson_too_deep_partial"
   ],
   "note": "WKB, GeoBIN and WKT parsers and the JSON check done. False for GeoJSON: a text whose brackets are not nested makes parse_geojson recurse without limit (C26_geojson_refuted). For GeoJSON that is an RFC 8259 text the limit holds."
  },
  {
   "property": "C27",
   "status": "proved",
   "theorems": [
    "C27_wkt",
    "C27_geojson",
    "C27_wkb",
    "C27_hex",
    "C27_geobin",
    "C27_accepts_wkb",
    "C27_accepts_geobin",
    "C27_accepts_hex",
    "C27_accepts_geojson",
    "C27_accepts_wkt"
   ],
   "note": "Every writer, every geometry (64-bit doubles; rings built by the ring constructors for the binary formats), every index option, every buffer that holds the whole output; and every byte string that a parser accepts."
  },
  {
   "property": "C28",
   "status": "partial",
   "theorems": [
    "C28_round_trip_partial",
    "C28_refuted",
    "C28_no_points_refuted"
   ],
   "note": "Proved for every shape that WKT can spell (lines of two or more positions, closed rings, empty parts without Z and M), whose coordinates are normal numbers or zero and whose text has at most 1024 pairs of parentheses. False beyond 1024 pairs (the parser counts them as nesting) and for a line of no points (written LINESTRING())."
  },
  {
   "property": "C29",
   "status": "partial",
   "theorems": [
    "C29_in_bounds_partial",
    "C29_ystripes_partial",
    "C29_refuted"
   ],
   "note": "Proved for every byte string and every index option: the reads stay inside the text and the parser ends. The result is a geometry or an error geometry unless y-stripes are asked for, when building the stripes of a ring may be undefined (a polygon of zero height)."
  },
  {
   "property": "C30",
   "status": "partial",
   "theorems": [
    "C30_round_trip_partial",
    "C30_members_partial",
    "C30_same_partial",
    "C30_refuted",
    "C30_empty_refuted",
    "C30_member_refuted",
    "C30_depth_refuted"
   ],
   "note": "Proved for every geometry, wherever it comes from, whose shape GeoJSON can spell, whose rings can be built with the index asked for, whose members are RFC 8259 texts with no U+10FFFF, nested at most 1024 deep: type, nesting, coordinates and every member come back; the id of a feature moves to the front; numbers that are not normal become 0. False as stated: M without Z becomes Z (C30_refuted), empty multi-geometries get Z and M (C30_empty_refuted), a member the parser took with a bad escape is not read back (C30_member_refuted), nor are 511 nested collections (C30_depth_refuted)."
  },
  {
   "property": "C31",
   "status": "partial",
   "theorems": [
    "C31_integer_text_reads_back",
    "C31_integer_text_plain_partial",
    "C31_integer_text_plain_refuted"
   ],
   "note": "Reading back is proved in both modes. Plain digits: proved with print_fixed_floats, and in the default mode unless the integer is a multiple of 1000; false in the default mode for 1000, printed as 1e3. strtod is assumed to round correctly."
  },
  {
   "property": "C32",
   "status": "partial",
   "theorems": [
    "C32_derived_partial",
    "C32_null",
    "C32_symmetric_refuted"
   ],
   "note": "Everything except symmetry of equals is proved for all geometries; when both calls of equals return they agree, but one of them may not return (C32_symmetric_refuted). NULL: for geometries whose index was built without undefined behaviour (see C39)."
  },
  {
   "property": "C33",
   "status": "partial",
   "theorems": [
    "C33_children_partial",
    "C33_rings_and_holes_partial",
    "C33_refuted"
   ],
   "note": "False as stated: index = count is accepted and reads one element beyond the array (C33_refuted). Proved for every other index."
  },
  {
   "property": "C34",
   "status": "partial",
   "theorems": [
    "C34_returns_refuted",
    "C34_sound_refuted",
    "C34_first_segment_partial",
    "C34_two_points_partial",
    "C34_returns_partial"
   ],
   "note": "Both halves are false: the walk along the two lines can go back and forth for ever (C34_returns_refuted, for every number of turns) and true is answered for lines that leave the first one (C34_sound_refuted). Proved: true implies that the first segment lies on the first line (integer coordinates up to 2^24); a line of two points is answered, and correctly; the call returns when no later segment starts where a segment of the first line starts."
  },
  {
   "property": "C35",
   "status": "partial",
   "theorems": [
    "C35_convex_sign_test",
    "C35_convex_turns_partial",
    "C35_closed_turns_partial",
    "C35_closed_refuted",
    "C35_repeated_point_refuted"
   ],
   "note": "False as stated: with the first point repeated at the end the turn there is never tested (C35_closed_refuted), and neither is a corner listed twice. Proved on integer coordinates up to 2^24 when no vertex is repeated next to itself, and for all turns but the first vertex's when the ring is closed explicitly. C35_convex_sign_test is the exact answer for all rings."
  },
  {
   "property": "C36",
   "status": "proved",
   "theorems": [
    "C36_winding",
    "C36_repeated_first_point",
    "C36_area_not_negative"
   ],
   "note": "Sums are exact when 4 m^2 n <= 2^53 for n points of coordinates at most m. The code's sum is minus the usual shoelace sum, so clockwise means shoelace < 0. Area not negative: all rings, no bound."
  },
  {
   "property": "C37",
   "status": "proved",
   "theorems": [
    "C37_option_round_trip",
    "C37_env_history",
    "C37_env_range",
    "C37_ring_uses_option",
    "C37_ring_reports_spread"
   ],
   "note": ""
  },
  {
   "property": "C38",
   "status": "partial",
   "theorems": [
    "C38_index_counts",
    "C38_index_covers_partial",
    "C38_refuted_large"
   ],
   "note": "Counts proved without restriction. Covering is false for unclosed rings (same leaf defect as C01) and for coordinates outside the normal float range (refuted); proved otherwise."
  },
  {
   "property": "C39",
   "status": "partial",
   "theorems": [
    "C39_cells",
    "C39_order",
    "C39_defined_partial",
    "C39_vertical_refuted"
   ],
   "note": "Permutation, ascending order and one curve number per cell proved for all inputs. Building the order is undefined when all children lie on one vertical or horizontal line: 0/0 is converted to an unsigned integer (C39_vertical_refuted); defined otherwise for coordinates in the range of floats."
  },
  {
   "property": "C40",
   "status": "partial",
   "theorems": [
    "C40_visits_partial",
    "C40_refuted"
   ],
   "note": "False as stated: nested collections are not descended into, empty geometries are visited (C40_refuted). Proved: direct children in order until the callback stops."
  },
  {
   "property": "C41",
   "status": "partial",
   "theorems": [
    "C41_copy_partial",
    "C41_ring_index_refuted",
    "C41_dangling_refuted",
    "C41_twice_refuted",
    "C41_empty_refuted"
   ],
   "note": "False as stated: the copy of an indexed ring, of y-stripes and of a multi with 64 or more children keeps pointers into the original (use after free once that is freed); copying such a copy of an indexed ring computes its size from two different blocks, undefined although nothing has been freed; and empty line or polygon geometries cannot be copied. Proved for all other geometries: same contents, read from new memory only, unchanged by every later history."
  },
  {
   "property": "C42",
   "status": "partial",
   "theorems": [
    "C42_poly_new_partial",
    "C42_refuted"
   ],
   "note": "False as stated: a NULL hole is accepted (C42_refuted)."
  },
  {
   "property": "C43",
   "status": "partial",
   "theorems": [
    "C43_wkb_partial",
    "C43_wkt_partial",
    "C43_geojson_partial",
    "C20_plain_partial",
    "C20_refuted"
   ],
   "note": "WKB, WKT and GeoJSON parsers done. The GeoBIN parser too, except for collections of features, where it is false (C20_refuted). Out of memory is not modelled for the parsers."
  },
  {
   "property": "C44",
   "status": "partial",
   "theorems": [
    "C44_exact_partial",
    "C44_decode_partial",
    "C44_refuted"
   ],
   "note": "False of the code for some pairs (C44_refuted). C44_exact_partial gives exactly the supplementary characters decoded right: plane odd, first unit not D800, second unit not DC00. C44_decode_partial: any string text with such pairs is decoded right into any buffer."
  },
  {
   "property": "C45",
   "status": "proved",
   "theorems": [
    "C45_intersects",
    "C45_covers"
   ],
   "note": "Hypotheses: every child answers (a predicate may not return, see C34); rectangles of the children without NaN and with ordered corners; from 64 children on coordinates in float range and the index defined (see C05, C39)."
  },
  {
   "property": "C46",
   "status": "partial",
   "theorems": [
    "C46_line_vertices_partial",
    "C46_refuted"
   ],
   "note": "False: a segment between two corners of an L-shaped ring, and a chord of a dart taken for convex, are covered although they leave the ring. Proved: every vertex of the line is inside or on the border, for rings without holes, integer coordinates up to 2^24, any safe index."
  },
  {
   "property": "C47",
   "status": "partial",
   "theorems": [
    "C47_reads_back_partial",
    "C47_refuted"
   ],
   "note": "Proved for every normal double, in both modes, before any text that cannot continue the number. False for subnormal numbers, which are printed as 0 (as are infinities and NaN). strtod is assumed to round correctly."
  },
  {
   "property": "C48",
   "status": "partial",
   "theorems": [
    "C48_tokens",
    "C48_geojson_total_partial",
    "C48_geojson_ystripes_partial",
    "C48_refuted"
   ],
   "note": "Proved for every byte string and every index option: tokens stay inside the text and the parser ends. The result is a geometry or an error geometry unless y-stripes are asked for, when building the stripes of a ring may be undefined (C48_refuted). The stack is not modelled: see C26_geojson_refuted."
  },
  {
   "property": "C49",
   "status": "partial",
   "theorems": [
    "C49_intersects_exact_partial",
    "C49_symmetric_partial",
    "C49_refuted"
   ],
   "note": "Proved under one more hypothesis: a hole that tg takes for convex has a convex interior. Without it false: a dart-shaped hole is taken for convex and a line through its notch is found disjoint (C49_refuted). Indexes must be safe (C01, C02); collections of 64 children or more need coordinates in float range (C39)."
  },
  {
   "property": "C50",
   "status": "proved",
   "theorems": [
    "C50_points_exact"
   ],
   "note": "For the geometries of C49 (with its hypothesis on holes), any safe index."
  },
  {
   "property": "C51",
   "status": "partial",
   "theorems": [
    "C51_index_independent_partial",
    "C51_points_partial",
    "C51_refuted"
   ],
   "note": "Proved when both indexes are safe in the sense of C01 and C02, for the geometries of C49; false otherwise: y-stripes lose a border point on the top edge."
  },
  {
   "property": "C52",
   "status": "partial",
   "theorems": [
    "C52_touches_symmetric_partial",
    "C52_refuted"
   ],
   "note": "Proved for a point and a geometry that is not a collection. False for collections: a point touches a collection if it touches one child, but a collection touches a point only if no child has it inside."
  },
  {
   "property": "C53",
   "status": "partial",
   "theorems": [
    "C53_covers",
    "C53_intersects",
    "C53_touches_partial",
    "C53_refuted"
   ],
   "note": "Covers, contains, intersects and disjoint proved for all geometries whose rings come from the constructors (for intersects, the index of the first geometry's collections could be built). Touches proved where an empty line has no point and an empty polygon no hole; refuted otherwise: a polygon touches a line of one point on its border, although that line is empty and does not intersect the polygon."
  },
  {
   "property": "C54",
   "status": "partial",
   "theorems": [
    "C54_shares_partial",
    "C54_lines_partial",
    "C54_insides_partial",
    "C54_refuted",
    "C54_refuted_along"
   ],
   "note": "Proved on integer coordinates up to 2^24 for the geometries of C49: true implies a common point, hence intersects (lines of two points or more); true implies in addition that no point is inside both, for two polygons without holes and for a line and a polygon without holes whose outlines cross or meet but nowhere run along each other; exact for two lines whose segments meet in single points, without segments of no length and not returning to their ends; exact for points by C50. Missing: polygons with holes, collections, and that geometries that only touch are found to. False both ways otherwise: two rectangles side by side with the side of one inside the side of the other, and a line past a corner, are found not to touch; a line and its first half, a polygon with an L-shaped hole and a triangle across the hole's corner, and a line that runs along a side of a ring and then through its inside, are found to touch although their interiors overlap."
  },
  {
   "property": "C55",
   "status": "proved",
   "theorems": [
    "C55_series",
    "C55_multi",
    "C55_ystripes"
   ],
   "note": "For every ABI whose struct tg_ring is not larger than the struct with five points, and counts below INT_MAX. The sizes are unbounded integers; the int that counts y-stripe entries would overflow from about 67 million points on. The index of a multi with any order of the children."
  },
  {
   "property": "C56",
   "status": "partial",
   "theorems": [
    "C56_memsize_partial",
    "C56_refuted"
   ],
   "note": "False for polygons with holes: tg_poly_memsize adds sizeof(struct tg_ring) instead of the size of a pointer for each hole. Proved: memsize is the sum of the allocations plus that difference for every hole. Objects whose rings hold their index in their own block (not made by tg_ring_copy, see C41); the spare capacity of a GeoJSON string (up to 9 bytes) is not counted."
  },
  {
   "property": "C57",
   "status": "partial",
   "theorems": [
    "C57_points",
    "C57_shifted_partial",
    "C57_moved_partial",
    "C57_refuted_spread",
    "C57_refuted_far",
    "C57_refuted_null_hole"
   ],
   "note": "C57_points holds for all doubles. The predicates: intersects for every pair of points, lines and polygons, covers, contains and touches of points; integer coordinates up to 2^24 before and after, rings without y-stripes and with the closing point when indexed. Not in general: a moved ring gets leaves of the default size instead of its own, which makes the index of an unclosed ring unsound; a ring with y-stripes moved too far is undefined behaviour; a polygon with a NULL hole moves to NULL."
  },
  {
   "property": "C58",
   "status": "partial",
   "theorems": [
    "C58_circle_partial",
    "C58_box",
    "C58_refuted"
   ],
   "note": "Proved for INT_MIN < steps <= 2^26 + 1, any center, radius and index, and arbitrary functions cos and sin: the loop stores exactly the points that are read, none outside the allocation, at angles within 2^-18 degrees of the equal ones; with cos and sin in [-1, 1] all points are inside the square. The full statement is false: 235520873 steps write past the end of the allocation, 301561927 steps leave points unset, INT_MIN overflows the decrement. tg_malloc is taken to succeed."
  },
  {
   "property": "C59",
   "status": "proved",
   "theorems": [
    "C59_point_point",
    "C59_rect_rect",
    "C59_point_rect",
    "C59_point_segment",
    "C59_unbounded_refuted"
   ],
   "note": "The C library's sqrt is taken to be correctly rounded (IEEE 754). C59_unbounded_refuted: with finite coordinates off the grid the distance of two points can come out infinite, and zero for different points."
  },
  {
   "property": "C60",
   "status": "proved",
   "theorems": [
    "C60_length"
   ],
   "note": "The C library's sqrt is taken to be correctly rounded."
  },
  {
   "property": "C61",
   "status": "partial",
   "theorems": [
    "C61_geom_intersects_rect_partial",
    "C61_parts_intersect_rect_partial",
    "C61_rect_covers",
    "C61_rect_search",
    "C61_line_covers_rect_refuted"
   ],
   "note": "Intersects is exact for geometries as in C49: holes that tg takes for convex are convex, y-stripes are not asked at the heights of C02. Covers and search are proved for all finite doubles as stated. C61_line_covers_rect_refuted: a bent line is said to cover an upright segment that leaves it, and a straight line of two segments is said not to cover a flat rectangle that lies on it. Not covered: tg_poly_covers_rect beyond what C46 says about covers."
  },
  {
   "property": "C62",
   "status": "proved",
   "theorems": [
    "C62_append",
    "C62_chain",
    "C62_trunc",
    "C62_json_pair",
    "C62_vector"
   ],
   "note": "Up to 2^50 bytes or elements; above that cap * 1.25 is rounded and is not modelled. Lengths are unbounded integers there, so size_t does not wrap."
  },
  {
   "property": "C63",
   "status": "partial",
   "theorems": [
    "C63_dims",
    "C63_empty_refuted",
    "C63_type_string",
    "C63_geojson_type"
   ],
   "note": "Proved as stated but for geometries without points. C63_empty_refuted: a multipolygon without polygons is said to have dimension 2."
  },
  {
   "property": "C64",
   "status": "partial",
   "theorems": [
    "C64_form_partial",
    "C64_words",
    "C64_case",
    "C64_rest_refuted",
    "C64_number_refuted",
    "C64_zero_refuted"
   ],
   "note": "Proved for every text: the word, the matched parentheses of a group and nothing but white space behind it; capitals do not matter. False: behind EMPTY anything that starts with a parenthesis is ignored; .5 is a number in a point and not in a line; behind a zero byte the rest of the word is ignored."
  },
  {
   "property": "C65",
   "status": "partial",
   "theorems": [
    "C65_stated_partial",
    "C65_unstated",
    "C65_counts_partial",
    "C65_empty_refuted",
    "C65_no_positions_refuted",
    "C65_collection_refuted"
   ],
   "note": "Proved for every accepted text of a type other than GEOMETRYCOLLECTION with a group: the letters decide; without letters M comes only with Z; with at least one position the extra coordinates are as many as positions times dimensions beyond two. False: POINT Z EMPTY has no Z, MULTIPOINT() has Z and M, the Z of GEOMETRYCOLLECTION Z(...) is ignored."
  },
  {
   "property": "C66",
   "status": "partial",
   "theorems": [
    "C66_json_partial",
    "C66_wkt",
    "C66_point",
    "C66_nearest",
    "C66_long_refuted"
   ],
   "note": "Proved for every WKT number that is not continued by what follows, for whole POINT texts, and for JSON numbers shorter than 512 bytes, through parse_double. False from 512 bytes on: 1.000...0 is read as 0. strtod is assumed to round correctly; C66_nearest says what that means."
  },
  {
   "property": "C67",
   "status": "partial",
   "theorems": [
    "C67_not_negative_partial",
    "C67_index",
    "C67_value",
    "C67_grid",
    "C67_bounded_partial",
    "C67_number_refuted",
    "C67_at_most_one_refuted"
   ],
   "note": "Proved: never below 0 and no minus sign, for all doubles as coordinates; the same score, area and perimeter with every index; the value 4 * M_PI * area / perimeter^2 within 2^-50, relatively, for areas 0 or within 2^-100..2^100 and perimeters within 2^-40..2^60; on the integer grid the same against the shoelace area and the sum of the distances, and at most 3.15. False: a square of side 2^652 scores NaN, two sides of a square as a line score Pi / 2. Missing: the bound 1 for closed rings (isoperimetric inequality)."
  }
 ]
}