{"id": "C01", "title": "Point-in-ring answer does not depend on the index", "statement": "For any ring built by tg_ring_new_ix from points without NaN, asking whether a point is inside the ring or on its border gives the same answer with TG_NONE, TG_NATURAL (any spread the environment can hold) and TG_YSTRIPES, both with and without counting the border as inside.", "quantifier": "every non-NaN point list of every length, every query point, every index kind and spread, both border modes", "why_tests_cant": "The index prunes with rounded single-precision boxes; a wrong prune only shows for particular coordinates and ring sizes, and the space of rings is infinite.", "anchors": ["tg.c: tg_ring_contains_point, ystripes_pip, index_pip_counter, branch_maybe_in, pip_eval_seg, process_ystripes, process_points"]}
{"id": "C02", "title": "Rectangle search over a ring visits exactly the matching segments", "statement": "Searching a ring's (or line's) segments with a rectangle reports exactly the segments whose bounding boxes meet the rectangle, each once, in increasing index order, whether or not the ring is indexed; if the callback returns false nothing is reported after it.", "quantifier": "every non-NaN series, every rectangle, every spread, every callback (stopping anywhere)", "why_tests_cant": "Depends on float rounding of every box in every level and on tree arithmetic for every series length.", "anchors": ["tg.c: tg_ring_search, index_search, tg_rect_to_ixrect, fill_in_upper_index_levels, process_points"]}
{"id": "C03", "title": "Segment-pair search between two series finds the same pairs with any index", "statement": "tg_ring_ring_search, tg_ring_line_search and tg_line_line_search report exactly the pairs of intersecting segments, once each, whatever the index kinds of the two operands.", "quantifier": "every pair of non-NaN series and index kinds", "why_tests_cant": "The dual-tree descent mixes double and float boxes; completeness is a statement over all coordinates and tree shapes.", "anchors": ["tg.c: tg_ring_ring_search, ring_ring_iter, ring_ring_ix, ring_ring_ix_inner"]}
{"id": "C04", "title": "Nearest-segment iteration is sorted and complete", "statement": "tg_ring_nearest_segment / tg_line_nearest_segment hand every segment to the callback exactly once in non-decreasing distance order provided the rectangle distance never exceeds the distance of a segment inside it, stop as soon as the callback returns false, and return false only when memory runs out.", "quantifier": "every series, every index, every admissible pair of distance callbacks, every stopping point", "why_tests_cant": "Priority-queue correctness and best-first completeness are over all trees and distance functions.", "anchors": ["tg.c: tg_ring_nearest_segment, nqueue_push, nqueue_pop, nqueue_less"]}
{"id": "C05", "title": "tg_geom_search finds every child whose rectangle meets the query", "statement": "For a multi-geometry or collection, tg_geom_search reports every child whose bounding rectangle meets the query rectangle and no other, whether or not the collection was large enough to be indexed.", "quantifier": "every collection without NaN, every query rectangle", "why_tests_cant": "The collection index stores single-precision boxes and compares them with a double-precision query; only a proof covers all magnitudes.", "anchors": ["tg.c: tg_geom_search, multi_index_search, multi_geom_inflate_index"]}
{"id": "C06", "title": "Bounding rectangle is the exact minimum", "statement": "The rectangle returned for a ring, line, polygon, multi-geometry or collection covers every point of the geometry and each of its four sides is attained by some point (empty parts ignored).", "quantifier": "every geometry built from non-NaN points", "why_tests_cant": "Tightness and coverage range over all point lists and nestings.", "anchors": ["tg.c: process_points, rect_inflate_point, tg_geom_rect, geom_new_multi, tg_rect_expand, tg_poly_rect"]}
{"id": "C07", "title": "Rectangle algebra", "statement": "tg_rect_expand is commutative, associative, idempotent and yields the least rectangle covering both operands; tg_rect_intersects_rect is symmetric and is true exactly when a common point exists; tg_rect_expand_point adds exactly one point; covering is a partial order.", "quantifier": "every triple of rectangles with ordered non-NaN sides and every point", "why_tests_cant": "Algebraic laws over all doubles including signed zeros and infinities.", "anchors": ["tg.c: tg_rect_expand, tg_rect_expand_point, tg_rect_intersects_rect, tg_rect_covers_rect, tg_rect_covers_point"]}
{"id": "C08", "title": "Segment intersection is symmetric", "statement": "tg_segment_intersects_segment(a,b) equals tg_segment_intersects_segment(b,a), does not depend on the direction of either segment and is true whenever the segments share an endpoint.", "quantifier": "every pair of segments with non-NaN coordinates", "why_tests_cant": "Floating point rounding makes symmetric-looking formulas asymmetric for rare inputs.", "anchors": ["tg.c: tg_segment_intersects_segment"]}
{"id": "C09", "title": "Segment intersection is geometrically exact on moderate integer coordinates", "statement": "When all coordinates are integers of magnitude at most 2^24, tg_segment_intersects_segment is true exactly when the two closed segments have a common point in the real plane.", "quantifier": "every pair of segments with integer coordinates of magnitude at most 2^24", "why_tests_cant": "2^200 inputs; a formula error on degenerate or collinear cases can hide from any sample.", "anchors": ["tg.c: tg_segment_intersects_segment, tg_segment_covers_point, collinear"]}
{"id": "C10", "title": "Point-on-segment and ray crossing are exact on moderate integer coordinates", "statement": "When all coordinates are integers of magnitude at most 2^20, a segment covers a point exactly when the point lies on the closed segment, and the even-odd crossing count used for point-in-polygon equals the number of segments crossed by the rightward ray under the half-open rule.", "quantifier": "every segment and point with integer coordinates of magnitude at most 2^20", "why_tests_cant": "Exactness over all inputs needs a bound on rounding, not samples.", "anchors": ["tg.c: raycast, collinear, tg_segment_covers_point, pip_eval_seg"]}
{"id": "C11", "title": "Reference counting frees exactly once, at the last release", "statement": "For any history of clone and free calls on shared geometries, rings and polygons, an object's memory and its children are released exactly when the last reference is dropped; no object is used after release or released twice, and nothing leaks when every reference is dropped.", "quantifier": "every finite history of constructor, clone and free calls over arbitrarily nested geometries", "why_tests_cant": "Histories are unbounded; sharing depth is unbounded.", "anchors": ["tg.c: rc_init, rc_retain, rc_release, tg_geom_free, tg_geom_clone, tg_poly_free, tg_ring_free, geom_free"]}
{"id": "C12", "title": "Clone and free are safe under every thread schedule", "statement": "When several threads each hold references and concurrently clone and free them, under any interleaving of the atomic counter updates the object is released exactly once and only after the last reference is dropped. The same is claimed for single-threaded use when the library is compiled without atomics.", "quantifier": "every number of threads, every interleaving", "why_tests_cant": "Schedules cannot be enumerated; the no-atomics build is a configuration the tests do not run.", "anchors": ["tg.c: rc_retain, rc_release, TG_NOATOMICS"]}
{"id": "C13", "title": "Cloning a stack or upcast object makes an independent copy", "statement": "tg_geom_clone of a geometry that is not heap owned (such as a point obtained from a multipoint) yields an object that stays valid and unchanged after the original goes away; cloning a heap geometry yields the same object with one more reference.", "quantifier": "every object and every later history of operations on the original", "why_tests_cant": "Lifetime claims range over all later histories.", "anchors": ["tg.c: tg_geom_clone, tg_ring_clone, tg_poly_clone, NOHEAP"]}
{"id": "C14", "title": "Allocation failure never leaks or crashes", "statement": "If any allocation fails during construction, copying or parsing, the call reports failure (NULL, or an error geometry when parsing) and everything allocated so far by the call is released.", "quantifier": "every construction or parse and every choice of which allocation fails", "why_tests_cant": "The failing allocation index is unbounded and paths multiply with input size.", "anchors": ["tg.c: series_new, tg_poly_new, geom_new_multi, tg_ring_copy, tg_geom_copy"]}
{"id": "C15", "title": "WKB round trip", "statement": "Parsing the bytes produced by tg_geom_wkb gives a geometry of the same type, dimension flags, coordinates (bit for bit) and nesting, for every geometry that a parser can produce, as long as every count fits 32 bits.", "quantifier": "every geometry value of any size and nesting depth up to the parser's limit", "why_tests_cant": "Unbounded nesting and sizes; all 2^64 coordinate patterns.", "anchors": ["tg.c: tg_geom_wkb, write_geom_*_wkb, parse_wkb, parse_wkb_posns"]}
{"id": "C16", "title": "WKB parser never reads outside its input", "statement": "tg_parse_wkb reads only the len bytes it was given, for any byte string, and always terminates with a geometry or an error.", "quantifier": "every byte string of every length", "why_tests_cant": "Malicious lengths near 2^32 are not covered by samples.", "anchors": ["tg.c: parse_wkb, parse_wkb_posns, parse_wkb_polygon, parse_wkb_multi*"]}
{"id": "C17", "title": "WKB endianness does not matter", "statement": "The big-endian and the little-endian encoding of the same geometry parse to the same geometry.", "quantifier": "every geometry, every mix of byte orders at the nested headers", "why_tests_cant": "All values and all mixes of byte orders.", "anchors": ["tg.c: read_uint32, read_double, parse_wkb"]}
{"id": "C18", "title": "Hex round trip and case-insensitivity", "statement": "tg_parse_hex applied to the output of tg_geom_hex equals tg_parse_wkb applied to the output of tg_geom_wkb, and upper/lower case of the digits does not matter; any odd length or non-hex character is rejected.", "quantifier": "every geometry, every byte string, every mix of letter case", "why_tests_cant": "All byte strings.", "anchors": ["tg.c: tg_geom_hex, parse_hex, tg_parse_hexn_ix"]}
{"id": "C19", "title": "GeoBIN round trip", "statement": "Parsing the bytes produced by tg_geom_geobin gives back the same geometry, feature/collection kind and extra JSON.", "quantifier": "every geometry, feature and feature collection of any size", "why_tests_cant": "Unbounded nesting; GEOBIN.md claims the format is lossless.", "anchors": ["tg.c: tg_geom_geobin, write_geom_*_geobin, parse_geobin"]}
{"id": "C20", "title": "GeoBIN parser reports malformed children as errors and stays in bounds", "statement": "tg_parse_geobin on any bytes returns either an error geometry or a geometry free of error children, and reads only inside the input.", "quantifier": "every byte string", "why_tests_cant": "All malformed inputs.", "anchors": ["tg.c: parse_geobin, tg_parse_geobin_ix"]}
{"id": "C21", "title": "GeoBIN bound readers agree with the parser", "statement": "For bytes written by tg_geom_geobin, tg_geobin_rect, tg_geobin_point and tg_geobin_fullrect return what tg_geom_rect, tg_geom_point and tg_geom_fullrect return for the parsed geometry; for any bytes they write at most four values into each output array.", "quantifier": "every geometry; every byte string for the memory claim", "why_tests_cant": "All byte strings including hostile dimension bytes.", "anchors": ["tg.c: tg_geobin_fullrect, tg_geobin_rect, tg_geobin_point, tg_geom_fullrect"]}
{"id": "C22", "title": "Writer length contract", "statement": "tg_geom_geojson/wkt/hex return the full length regardless of n; write never more than n bytes; what is written is a prefix of the full text, NUL-terminated when n > 0; tg_geom_wkb/geobin do the same without terminator.", "quantifier": "every geometry and every buffer size n", "why_tests_cant": "All (geometry, n) pairs, including n in the middle of any token.", "anchors": ["tg.c: struct writer, write_char, write_string, write_nullterm, tg_geom_hex"]}
{"id": "C23", "title": "JSON validator accepts exactly RFC 8259 within its depth limit", "statement": "The JSON check applied to GeoJSON input accepts exactly the texts of the RFC 8259 grammar (nesting limited to the documented depth) and never reads past the end of the input.", "quantifier": "every byte string", "why_tests_cant": "All byte strings; grammar boundary cases are endless.", "anchors": ["tg.c: json_validn, vany, vstring, vesc, vutf8, vnumber, varray, vobject"]}
{"id": "C24", "title": "JSON strings written by the library are valid and decode to the input", "statement": "Escaping any byte string gives a valid JSON string literal, and decoding that literal with the library gives back the same bytes when they are valid UTF-8.", "quantifier": "every byte string", "why_tests_cant": "All strings including every control character and every UTF-8 sequence.", "anchors": ["tg.c: json_escapen, for_each_utf8, json_string_copy, json_string_compare"]}
{"id": "C25", "title": "JSON element access is correct", "statement": "On valid JSON, looking up the k-th array element or a named member returns exactly that element's text range, and the type and number of children reported match the grammar.", "quantifier": "every valid JSON document and every index or key", "why_tests_cant": "All documents.", "anchors": ["tg.c: json_first, json_next, json_array_get, json_object_get, json_type"]}
{"id": "C26", "title": "Nesting limits protect the stack", "statement": "For any input, however long, the recursion depth of every parser (GeoJSON, WKT, WKB, GeoBIN) stays under a fixed limit and deeper input is reported as an error.", "quantifier": "every byte string of every length", "why_tests_cant": "Input length is unbounded; a recursion bug crashes only on adversarial depth.", "anchors": ["tg.c: MAXDEPTH, parse_geojson, parse_wkt, parse_wkb, parse_geobin, json vany"]}
{"id": "C27", "title": "Format detection picks the right parser", "statement": "tg_parse applied to the output of any of the writers (GeoJSON, WKT, hex, WKB, GeoBIN) behaves exactly like that format's own parser. More generally, any bytes that one of the five parsers accepts without error (WKB of either byte order, hex in either case, text behind white space) tg_parse accepts with the same result.", "quantifier": "every geometry and every writer; every byte string accepted by a parser", "why_tests_cant": "All outputs, including those starting with unusual digits or letters.", "anchors": ["tg.c: tg_parse_ix"]}
{"id": "C28", "title": "WKT round trip", "statement": "Parsing the text produced by tg_geom_wkt gives a geometry of the same type, dimension flags, nesting and coordinates.", "quantifier": "every geometry whose coordinates are normal numbers or zero", "why_tests_cant": "Unbounded sizes and nesting.", "anchors": ["tg.c: tg_geom_wkt, parse_wkt, wkt_balance_coords, wkt_vnumber"]}
{"id": "C29", "title": "WKT parser never reads outside its input", "statement": "tg_parse_wktn reads only inside the given text for any bytes and terminates with a geometry or an error.", "quantifier": "every byte string", "why_tests_cant": "The number scanner relies on a closing parenthesis found earlier; only a proof covers every input.", "anchors": ["tg.c: parse_wkt, wkt_balance_coords, wkt_vnumber, parse_wkt_posns"]}
{"id": "C30", "title": "GeoJSON geometry round trip", "statement": "Parsing the text produced by tg_geom_geojson gives a geometry of the same type, dimensions, nesting and coordinates, and keeps every extra member.", "quantifier": "every geometry, feature and collection", "why_tests_cant": "Unbounded sizes, nesting and extra members.", "anchors": ["tg.c: tg_geom_geojson, parse_geojson, take_basic_geojson, tg_geom_extra_json"]}
{"id": "C31", "title": "Integer number printing round trips", "statement": "A coordinate that is an integer prints as its plain decimal digits and the printed text parses back to the same value.", "quantifier": "every integer-valued double below 2^53 in magnitude", "why_tests_cant": "2^54 values.", "anchors": ["tg.c: fp_utoa, fp_dtoa, d2d_small_int, write_string_double"]}
{"id": "C32", "title": "Predicate algebra", "statement": "disjoint is the negation of intersects; within and coveredby are contains and covers with arguments swapped; equals is symmetric and implies within both ways; NULL arguments give false (disjoint true).", "quantifier": "every pair of geometries, including NULL", "why_tests_cant": "Relations over all pairs.", "anchors": ["tg.c: tg_geom_disjoint, tg_geom_within, tg_geom_coveredby, tg_geom_equals, tg_geom_contains, tg_geom_covers"]}
{"id": "C33", "title": "Indexed accessors are total", "statement": "tg_geom_point_at, line_at, poly_at, geometry_at, tg_ring_point_at, tg_poly_hole_at and the like return the element for 0 <= index < count and the documented empty value (NULL or zero) for every other index, without reading outside the object.", "quantifier": "every geometry and every int index, negative ones included", "why_tests_cant": "All indices; off-by-one at the end reads stray memory that tests may not notice.", "anchors": ["tg.c: tg_geom_point_at, tg_geom_line_at, tg_geom_poly_at, tg_geom_geometry_at, tg_ring_point_at, tg_ring_segment_at, tg_poly_hole_at"]}
{"id": "C34", "title": "Line covering line terminates and is sound", "statement": "tg_geom_covers on two linestrings returns for all inputs, and when it answers true every point of the second line lies on the first.", "quantifier": "every pair of lines", "why_tests_cant": "Termination over all inputs cannot be tested.", "anchors": ["tg.c: tg_line_covers_line"]}
{"id": "C35", "title": "Convexity flag is sound", "statement": "When tg_ring_convex answers true the polygon outlined by the ring is convex: no two consecutive turns, around the whole cycle, bend in opposite directions.", "quantifier": "every ring, closed explicitly or implicitly", "why_tests_cant": "All rings; the flag gates a shortcut in covers.", "anchors": ["tg.c: process_points, tg_ring_convex, tg_ring_contains_segment"]}
{"id": "C36", "title": "Winding direction follows the signed area", "statement": "tg_ring_clockwise is true exactly when the shoelace sum over the whole closed ring is positive; the answer does not depend on whether the first point is repeated at the end, and tg_ring_area is never negative.", "quantifier": "every ring with integer coordinates small enough to be summed exactly", "why_tests_cant": "All rings.", "anchors": ["tg.c: process_points, tg_ring_clockwise, tg_ring_area"]}
{"id": "C37", "title": "Index options survive the environment encoding", "statement": "The index kind and spread set with tg_env_set_index and tg_env_set_index_spread, or passed with an index argument, are what new rings use; out-of-range spreads are clamped or ignored and never corrupt the index kind.", "quantifier": "every int spread and every index kind, any order of calls", "why_tests_cant": "All ints and call orders.", "anchors": ["tg.c: tg_env_set_index, tg_env_set_index_spread, tg_index_with_spread, tg_index_extract_spread, ring flags"]}
{"id": "C38", "title": "Index shape", "statement": "For an indexed ring the level rectangles reported by tg_ring_index_level_rect at each level partition the segments: level k rect i covers (in the box sense) all segments below it, counts shrink by the spread at each level, and the top level has at most spread entries.", "quantifier": "every ring length and spread", "why_tests_cant": "All lengths and spreads.", "anchors": ["tg.c: calc_num_keys, calc_num_levels, calc_index_size, fill_in_upper_index_levels, tg_ring_index_level_num_rects, tg_ring_index_level_rect"]}
{"id": "C39", "title": "Hilbert ordering of collections loses nothing", "statement": "The spatial sort used when indexing collections is a permutation: every child appears exactly once in the index, and the curve number assigned to a 16-bit grid cell is unique to that cell.", "quantifier": "every collection; every grid cell", "why_tests_cant": "2^32 cells; all collections.", "anchors": ["tg.c: tg_point_hilbert, multi_geom_inflate_index"]}
{"id": "C40", "title": "foreach visits in order and obeys the callback", "statement": "Iterating over a geometry's primitive parts visits each child exactly once in order, descending into collections, and stops as soon as the callback returns false.", "quantifier": "every nesting and every callback", "why_tests_cant": "All nestings.", "anchors": ["tg.c: tg_geom_foreach, geom_foreach"]}
{"id": "C41", "title": "Deep copies are equal and independent", "statement": "tg_geom_copy, tg_poly_copy, tg_ring_copy and tg_line_copy return an object with identical observable contents sharing no memory with the original.", "quantifier": "every geometry", "why_tests_cant": "All nestings, later histories.", "anchors": ["tg.c: tg_geom_copy, tg_poly_copy, tg_ring_copy, tg_line_copy"]}
{"id": "C42", "title": "Polygon constructor rejects missing rings", "statement": "tg_poly_new returns NULL when the exterior or any hole is NULL, as documented, and otherwise a polygon whose exterior and holes are those given, in order.", "quantifier": "every exterior, hole list and count", "why_tests_cant": "All lists.", "anchors": ["tg.c: tg_poly_new, tg_poly_hole_at, tg_poly_num_holes"]}
{"id": "C43", "title": "Parsing failures are reported, never half-built geometries", "statement": "Every parser returns either NULL (out of memory), a geometry for which tg_geom_error is NULL, or an error geometry for which tg_geom_error is a message; a geometry without error contains no error child.", "quantifier": "every byte string and every parser", "why_tests_cant": "All inputs.", "anchors": ["tg.c: make_parse_error, tg_geom_error, tg_geom_new_error"]}
{"id": "C44", "title": "Unescaped UTF-16 surrogate pairs decode to the right code point", "statement": "Decoding a JSON string containing the escape pair for any supplementary-plane character yields the UTF-8 encoding of that character.", "quantifier": "every code point U+10000..U+10FFFF", "why_tests_cant": "About a million pairs, each a separate case.", "anchors": ["tg.c: for_each_utf8, is_surrogate, decode_cp, encode_codepoint"]}
{"id": "C45", "title": "Collections answer by their children", "statement": "A non-empty collection or multi-geometry intersects a geometry exactly when one of its children does, whatever index it carries; it covers (contains) a geometry exactly when that has a non-empty part and every non-empty part is covered (contained) by one child.", "quantifier": "every collection, nested or not, with any number of children, and every other geometry", "why_tests_cant": "All collections, sizes below and above the index threshold, and all nestings.", "anchors": ["tg.c: base_geom_intersects_geom, multiiter, tg_geom_search, base_geom_covers_geom, geom_covers_iter, base_geom_contains_geom"]}
{"id": "C46", "title": "What a polygon covers lies inside it", "statement": "When tg_geom_covers(polygon, line) answers true, every point of the line is inside the polygon or on its border.", "quantifier": "every polygon and every line", "why_tests_cant": "All shapes, and uncountably many points of each line.", "anchors": ["tg.c: tg_ring_contains_segment, tg_ring_contains_line, tg_poly_covers_line, tg_geom_covers"]}
{"id": "C47", "title": "Printed coordinates read back exactly", "statement": "The text that the WKT and GeoJSON writers print for a coordinate is read back, by the number reader that the WKT and GeoJSON parsers use, as the same double, with and without fixed floats, whatever follows it in the text.", "quantifier": "every finite double", "why_tests_cant": "2^64 values, and the printed text comes from truncated 128-bit table products that are exact only because no multiple of a table ratio comes too close to an integer.", "anchors": ["tg.c: write_string_double, d2s_buffered_n, d2d, mulShiftAll64, DOUBLE_POW5_SPLIT, DOUBLE_POW5_INV_SPLIT, fp_utoa"]}
{"id": "C48", "title": "The GeoJSON parser accepts any bytes safely", "statement": "For every byte string tg_parse_geojsonn terminates, reads only bytes of the input (every JSON token it visits lies inside the text), and returns a geometry or an error geometry.", "quantifier": "every byte string of every length, every index option", "why_tests_cant": "All byte strings, including unterminated strings and escapes that the JSON check and the tokenizer treat differently.", "anchors": ["tg.c: tg_parse_geojsonn_ix, parse_geojson, take_basic_geojson, json_first, json_next, count_nested, count_string, peek_any"]}
{"id": "C49", "title": "Intersects means having a point in common", "statement": "tg_geom_intersects(a, b) returns, and returns true exactly when some point of the plane belongs to both geometries; so it is symmetric and disjoint is its opposite.", "quantifier": "all geometries (points, lines, polygons with holes, collections nested to any depth, empties) whose coordinates are integers up to 2^24 and whose polygons' rings belong to the polygon, with any index that is safe in the sense of C01 and C02", "why_tests_cant": "All pairs of shapes, and uncountably many points that could be the common one; when the borders do not meet the answer rests on the parity of crossings and on comparing bounding boxes.", "anchors": ["tg.c: tg_geom_intersects, base_geom_intersects_geom, tg_poly_intersects_poly, tg_poly_intersects_line, tg_ring_intersects_ring, tg_ring_intersects_line, tg_ring_intersects_segment, tg_ring_contains_ring, tg_ring_contains_line, tg_ring_contains_segment, tg_line_intersects_line, tg_line_covers_point, tg_poly_covers_point"]}
{"id": "C50", "title": "Covers, contains and touches of a point", "statement": "A geometry covers a point exactly when the point belongs to it, contains it exactly when moreover the point is in the inside of some part (not an end of a line, not on a ring of a polygon), and touches it exactly when it covers and does not contain it.", "quantifier": "all geometries as in C49 and all points with integer coordinates up to 2^24", "why_tests_cant": "All shapes, holes and nestings, and all positions of the point, in particular the borders.", "anchors": ["tg.c: tg_geom_covers, tg_geom_contains, tg_geom_touches, tg_poly_covers_point, tg_poly_contains_point, tg_line_contains_point, tg_point_touches_line, tg_point_touches_poly"]}
{"id": "C51", "title": "Predicates do not depend on the index", "statement": "Two geometries built from the same points, with different index kinds and spreads, give the same answers to intersects, and to covers, contains and touches of a point.", "quantifier": "all geometries with integer coordinates up to 2^24 and any index options", "why_tests_cant": "All shapes times all index options of every ring of both geometries.", "anchors": ["tg.c: tg_geom_intersects, tg_geom_covers, tg_geom_contains, tg_geom_touches, series_new"]}
{"id": "C52", "title": "Touches is symmetric", "statement": "tg_geom_touches(a, b) = tg_geom_touches(b, a).", "quantifier": "all pairs of geometries", "why_tests_cant": "All pairs, and the two directions run through different functions.", "anchors": ["tg.c: tg_geom_touches, base_geom_touches_geom, point_touches_geom, line_touches_geom, poly_touches_geom"]}
{"id": "C53", "title": "Empty geometries take part in nothing", "statement": "If tg_geom_is_empty holds of either of two geometries (NULL, a flagged empty, a line or polygon without enough points, a collection of empties), then tg_geom_covers, tg_geom_contains, tg_geom_intersects and tg_geom_touches between them are false and tg_geom_disjoint is true.", "quantifier": "every pair of geometries, nested collections included, one of them empty", "why_tests_cant": "Emptiness arises in many representations and at any depth; each predicate has its own shortcuts for it.", "anchors": ["tg.c: tg_geom_is_empty, tg_geom_covers, tg_geom_contains, tg_geom_intersects, tg_geom_touches"]}
{"id": "C54", "title": "Touches means meeting at the boundaries only", "statement": "tg_geom_touches(a, b) is true exactly when the two geometries have a point of the plane in common and no point that is inside both, the ends of a line and the borders of the rings of a polygon counting as boundary. In particular geometries that touch intersect.", "quantifier": "all pairs of geometries: points, lines, polygons with holes, nested collections", "why_tests_cant": "The answer is assembled from counts of crossings per segment; corners, shared sides and collinear overlaps each take their own path, and there are infinitely many positions.", "anchors": ["tg.c: tg_geom_touches, tg_poly_touches_poly, tg_poly_touches_line, tg_line_touches_line, segment_touches0, intersegiter"]}
{"id": "C55", "title": "Allocations hold what is written into them", "statement": "The block that a ring or line constructor allocates holds the struct, all points and the closing one, and the index with its levels and rectangles; these parts lie inside the block and do not overlap, and the size reported for the block is its size. The same for the index of a multi-geometry and for the y-stripes, where the counting pass and the filling pass stay inside their arrays and leave exactly the segments of each stripe, in order.", "quantifier": "all point arrays including NaN and infinite coordinates, every index option and spread, all numbers of children, every ABI", "why_tests_cant": "An allocation one rectangle short only shows for particular counts and spreads, and often silently; the counts range over all sizes.", "anchors": ["tg.c: calc_series_size, calc_index_size, fill_index_struct, series_new, process_points, process_ystripes, ring_alloc_size, multi_geom_inflate_index"]}
{"id": "C56", "title": "memsize is the memory of the geometry", "statement": "tg_geom_memsize (and the functions for rings, lines and polygons) returns the sum of the sizes of the allocations that make up the geometry.", "quantifier": "all geometries, nested collections included", "why_tests_cant": "Needs the sizes of every kind of allocation for every nesting.", "anchors": ["tg.c: tg_geom_memsize, geom_memsize, tg_poly_memsize, tg_ring_memsize, tg_line_memsize"]}
{"id": "C57", "title": "Moving translates", "statement": "tg_point_move, tg_ring_move, tg_line_move and tg_poly_move add the deltas to every coordinate, keep the number and order of the points, and return an object about which the predicates answer as about the original, when both operands are moved by the same deltas.", "quantifier": "all points, lines, rings and polygons with holes, all deltas, every index", "why_tests_cant": "Needs every pair of geometries and every delta; rebuilding the index is hidden in the move.", "anchors": ["tg.c: tg_point_move, series_move, tg_ring_move, tg_line_move, tg_poly_move", "tg.c: tg_geom_intersects, tg_geom_covers, tg_geom_contains, tg_geom_touches"]}
{"id": "C58", "title": "Circles are drawn within their memory at equal angles", "statement": "tg_circle_new_ix(center, radius, steps, ix) builds the ring of max(steps, 4) points that lie at equal angles around the center, the last one equal to the first, for every int steps; it stores only into the memory it allocated, reads only points it stored, and no point leaves the square of the center and the radius. A negative radius counts as zero.", "quantifier": "all centers, radii, int step counts and indexes; whatever cos and sin return", "why_tests_cant": "The angle is a sum of rounded doubles compared with 360; whether the loop ends one turn early or late depends on the rounding of up to 2^31 additions for each of 2^32 step counts.", "anchors": ["tg.c: tg_circle_new_ix, tg_circle_new"]}
{"id": "C59", "title": "Distances are right on moderate integer coordinates", "statement": "On integer coordinates up to 2^24: tg_point_distance_point, tg_rect_distance_rect and tg_point_distance_rect return the double nearest to the real distance of the two nearest points; the distance of rectangles is symmetric and zero exactly if they have a point in common; tg_point_distance_segment is within 2^-23 of the distance to the nearest point of the segment, also for a segment of length zero. Without the bound this is false: squares overflow and underflow.", "quantifier": "all points, segments and rectangles (min <= max) with integer coordinates of magnitude at most 2^24", "why_tests_cant": "A distance is compared with one computed in the same arithmetic, so tests see neither the rounding of the division and the clamped foot point nor which of the three cases (foot before, within, after the segment) a wrong sign would break.", "anchors": ["tg.c: tg_point_distance_segment, tg_rect_distance_rect, tg_point_distance_rect, tg_point_distance_point"]}
{"id": "C60", "title": "Perimeter and length add up the segments", "statement": "tg_ring_perimeter of a ring and tg_line_length of a line with n segments on integer coordinates up to 2^24 differ from the real sum of the lengths of all segments, the closing one included for a ring whether or not the closing point was given, by at most n * 2^-51 of that sum, whatever index was asked for.", "quantifier": "all point lists of less than 2^26 points with integer coordinates of magnitude at most 2^24, rings and lines, all index options", "why_tests_cant": "Rounding errors of up to 2^26 additions accumulate; tests look at a few short rings.", "anchors": ["tg.c: tg_ring_perimeter, tg_line_length, length"]}
{"id": "C61", "title": "Rectangles against the other geometries", "statement": "On integer coordinates up to 2^24: tg_geom_intersects_rect, tg_rect_intersects_line, tg_line_intersects_rect, tg_poly_intersects_rect, tg_rect_intersects_poly and tg_point_intersects_rect answer true exactly when some point of the geometry is in the rectangle, sides included, degenerate rectangles too. For all finite doubles: tg_rect_covers_line and tg_rect_covers_poly answer true exactly when the line or polygon is not empty and no point of it is outside the rectangle; tg_rect_search calls back, in order and until told to stop, for exactly the sides that have a point in the target. tg_line_covers_rect answers true exactly when every point of the rectangle is on the line (false).", "quantifier": "all geometries and all rectangles with min <= max, with integer coordinates of magnitude at most 2^24 (covers and search: all finite doubles), any index", "why_tests_cant": "The rectangle becomes a ring on the stack with fields set by hand (no area, no direction, five points and no sixth); whether that ring behaves like a built one in every branch of the ring code is not visible on a few inputs.", "anchors": ["tg.c: rect_to_ring, tg_geom_intersects_rect, tg_rect_intersects_line, tg_rect_intersects_poly, tg_poly_intersects_rect, tg_rect_covers_line, tg_rect_covers_poly, tg_rect_search, tg_line_covers_rect"]}
{"id": "C62", "title": "Growing buffers and vectors stay inside their memory", "statement": "A chain of appends to a byte buffer leaves exactly the appended bytes in order, never writes outside the memory it owns and never runs forever, whatever appends the allocator refuses: a refused append ends the chain and keeps what was there. The buffer takes at most twice the room needed. Truncating keeps the bytes and leaves at most eight spare. A member of a JSON object is written whole or not at all. Elements appended one by one to a vector are all there in order, and all reallocations together carry over at most ten times as many elements as there are in the end plus five times the starting size.", "quantifier": "all chains of appends of any sizes and all answers of the allocator, up to 2^50 bytes or elements in total", "why_tests_cant": "An append that only just does not fit, a refused reallocation in the middle of a pair and the change of growth rule at 1000 are single points among all lengths; the growth loop and the cost are statements about all lengths.", "anchors": ["tg.c: grow_cap, tg_buf_ensure, tg_buf_append_byte, tg_buf_append_bytes, tg_buf_trunc, buf_append_json_pair, def_vec"]}
{"id": "C63", "title": "The dimension of a geometry is the largest one of its parts", "statement": "tg_geom_de9im_dims is the largest dimension of the points (0), lines (1) and polygons (2), single or multi, that a geometry is made of at any depth of nesting, and -1 if there are none; a geometry without points has dimension -1 (false). tg_geom_type_string gives the seven types different names, Unknown to every other number, and the name that the GeoJSON text of a geometry starts with.", "quantifier": "all geometries, NULL and NULL children included; all type numbers", "why_tests_cant": "Collections nest to any depth and mix kinds in any order.", "anchors": ["tg.c: tg_geom_de9im_dims, tg_geom_type_string"]}
{"id": "C64", "title": "The form of accepted WKT", "statement": "A WKT text that is accepted starts, after white space, with the word for the type of the geometry it gives, in any mixture of small letters and capitals, and the rest is one group in parentheses with all parentheses inside matched, then white space; only the word EMPTY stands without a group, with nothing behind it (false). A number is accepted in a line when it is accepted in a point (false), and no other word than the seven is taken for a type (false: a zero byte ends the word). Small letters and capitals before the first parenthesis make no difference to the geometry.", "quantifier": "all byte strings, all index options", "why_tests_cant": "What is wrongly accepted lies among all malformed texts; tests list the malformed texts somebody thought of.", "anchors": ["tg.c: parse_wkt, wkt2type, wkt_balance_coords, wkt_trim_ws, parse_wkt_point, parse_wkt_posns, tg_parse_wktn_ix"]}
{"id": "C65", "title": "Z and M of geometries read from WKT", "statement": "A geometry read from WKT has a Z coordinate exactly when Z or ZM is written behind its type, or nothing is written there and its positions have three or four numbers; it has M exactly when M or ZM is written, or nothing is written and its positions have four numbers (false for EMPTY, for groups without positions, and for collections). The number of extra coordinates stored is the number of positions times the dimensions beyond two.", "quantifier": "all byte strings accepted by tg_parse_wktn_ix, all index options", "why_tests_cant": "The dimensions are carried through four levels of groups; a mistake shows only for particular combinations of letters, group counts and empty groups.", "anchors": ["tg.c: wkt2type, parse_wkt_posns, parse_wkt_multi_posns, parse_wkt_point, parse_wkt_linestring, parse_wkt_polygon, parse_wkt_multipoint, parse_wkt_multilinestring, parse_wkt_multipolygon, tg_geom_dims, tg_geom_num_extra_coords"]}
{"id": "C66", "title": "Numbers in texts are read by their decimal value", "statement": "Every number in a WKT or GeoJSON text is read as the double nearest to the decimal value it spells, ties to even; the WKT reader takes nothing else than a decimal for a number (false for JSON numbers of 512 bytes or more, which are read as 0).", "quantifier": "all number texts: sign, digits, fraction, exponent of any length", "why_tests_cant": "Texts of numbers are unbounded in length and form; the buffers have fixed sizes.", "anchors": ["tg.c: stod, parse_double, parse_double_big, json_double, wkt_vnumber, parse_wkt_point, parse_wkt_posns"]}
{"id": "C67", "title": "Compactness scores", "statement": "The compactness (Polsby-Popper) score of every ring and line is a number between 0 and 1, equal up to rounding to 4 * Pi * area / perimeter^2, and neither it nor the area nor the perimeter depends on the index asked for (false: overflowing coordinates score NaN, open lines score more than 1).", "quantifier": "all point lists, coordinates, index choices and library settings, rings and lines", "why_tests_cant": "Coordinates and shapes are unbounded, and the failures are at the ends of the range of doubles or on shapes nobody scores by hand.", "anchors": ["tg.c: tg_ring_polsby_popper_score, tg_line_polsby_popper_score, tg_ring_area, tg_ring_perimeter"]}
