# Design

A machine-checked model of `tg` (tidwall/tg, sources in `/repo`: `tg.c`, `tg.h`)
in Rocq (Coq 8.16.1), with proofs of the properties in `properties.jsonl`.
`MANIFEST.json` says what is proved of each property.

## How the model is organised

Model files contain total computable functions only.  Each definition carries a
comment with the lines of `/repo` that it transcribes and what is simplified.
Undefined behaviour is a result of its own (`None`, or an outcome `UB`), never a
default value.

| model | code |
|---|---|
| `F64.v` | doubles as 64-bit patterns (`Z`); comparison by sign-magnitude keys; arithmetic is `SpecFloat` of the standard library (round to nearest even, precision 53, emax 1024); conversion to `float` |
| `Geo.v` | points, rectangles, segments |
| `Series.v` | `series_new`: points, rectangle, winding, area, convexity, index, y-stripes |
| `Search.v` | index searches, pair searches, point in ring |
| `RingApi.v` | index options, environment settings, ring accessors |
| `MultiIx.v` | index of multi-geometries, Hilbert order |
| `Geom.v` | polygons, geometries, constructors, accessors, foreach, rectangles |
| `Bytes.v`, `Writer.v` | byte strings, the bounded writer |
| `Nearest.v` | the priority queue with an allocator that may fail, the nearest-segment loop with fuel |
| `Preds.v`, `PredsGeom.v` | spatial predicates of rings, lines, polygons and geometries; an answer, undefined behaviour, or a call that does not return |
| `WkbWrite.v`, `WkbParse.v`, `Hex.v`, `Geobin.v` | binary codecs: writers to byte lists, readers with explicit offsets; a read out of bounds is an outcome |
| `Json.v`, `JsonTok.v` | the JSON validator, tokens, escapes and string comparison |
| `Pow5Tab.v`, `Num.v` | number text: the shortest-decimal printer (Ryu, with its tables), fp_utoa, write_string_double; `strtod` |
| `WktParse.v`, `WktWrite.v` | WKT reader on slices with the rest of the buffer behind them; WKT writer |
| `GeojsonParse.v`, `GeojsonWrite.v` | GeoJSON reader on JSON tokens; GeoJSON writer |
| `Parse.v` | detection of the format, tg_parse |
| `Heap.v`, `HeapGeom.v`, `HeapHist.v` | allocations, counts, clone/copy/free and constructors in a memory whose allocator may fail; histories of calls |
| `HeapThr.v` | free as atomic steps, threads and schedules; the counters of the build without atomics |
| `Circle.v` | circles; cos and sin are arbitrary functions |
| `Dist.v` | distances of points, segments and rectangles, perimeters |
| `RectApi.v` | the functions between rectangles and lines, polygons, geometries; small public wrappers |
| `Grow.v` | capacities, byte buffers and vectors that grow, with an allocator that may refuse |
| `Dims.v` | dimension and type name of a geometry |
| `Move.v` | moving points, segments, rectangles, rings, lines and polygons |
| `Layout.v` | sizes asked of the allocator, the places of points, levels and stripes in a block, the counting passes of the y-stripes, memsize |

`Spec*.v` files hold what the theorems speak about, independent of the model
functions: real arithmetic on coordinates, grammars, reachability.  `*Facts.v`
and the other files hold the proofs.  `Thm_*.v` files hold the theorems of the
manifest, each with `Print Assumptions` and an `Example` that meets its
hypotheses.

## Simplifications

* No fused multiply-add: each C operation rounds once to double, as without
  `-ffp-contract`.
* Sizes are unbounded: `int` and `size_t` do not wrap unless a file says so
  (GeoBIN lengths and `calc_*` do).
* Pure models of constructors (`Series.v`, `Geom.v`) have no failing allocation;
  `Heap.v` and `HeapGeom.v` have it, with the same contents.
* Memory: blocks are never reused after being freed, so a use after free is
  always seen as such.  Reference counts are unbounded integers and counter
  updates take effect in one order (sequential consistency).  An array of
  children is read in one step (`HeapThr.v`).  `tg_malloc(0)` is not NULL unless it
  fails.  Where the Hilbert order is undefined (C39) the memory model takes the
  order of the array.
* Histories (`HeapHist.v`): lines and rings are one static type, borrowed
  references are exterior, holes, line, polygon and children of collections.

## Method per property

| id | modelled | proof |
|----|----------|-------|
| C01 | process_points/process_ystripes, three point-in-ring loops | invariant: a pruned segment is neither hit nor crossed; float rounding is monotone |
| C02 | ring index and index_search | induction over levels: search of a subtree = filter of its leaf range |
| C03 | ring-ring search loops and dual tree | the loops as filters of pairs; refuted beyond the float range |
| C05, C39 | multi index, search, Hilbert order | as C02; order from a sorted permutation; table of cells |
| C06 | rectangle folds over points and children | induction over the geometry |
| C04 | best-first search with a binary heap | heap order and permutation; every queue entry stands for a set of segments and a number of rounds |
| C07 | rectangle functions | order keys |
| C08-C10 | segment intersection, covering, ray test in doubles | every operation exact on bounded integers, then real geometry |
| C11, C13, C14, C41 | memory machine with counts and an allocator that may fail | one invariant: count = references held or owned, plus a rank (no cycles); weakest preconditions for every function |
| C12 | threads whose steps interleave | the same invariant, with what each thread still has to release as held references; a measure for the end of every call |
| C22, C27 | all writers; format detection | a writer is undefined or types one text, whatever the buffer; its first bytes decide; what a parser accepts starts with bytes that lead to it |
| C15-C18, C22, C26, C43 | WKB and hex writers/parsers | structural induction |
| C19-C22, C26 | GeoBIN | as WKB |
| C23, C24, C26, C44 | JSON validator, escapes, comparison | inductive grammar against the validator |
| C25 | JSON tokens, lookup | a value is skipped by counting brackets outside strings; a walk along the parts |
| C32, C34, C45, C46 | all predicates | walk of two lines: a loop returns within (segments of a)*(segments of b) turns or never; nested induction over collections; point in ring from C10 |
| C49-C52 | predicates on point sets | the parity of crossings changes along a segment exactly by the borders it meets; a border that does not meet another stays on one side of it; of two rings inside each other one has the larger box |
| C54 | touches | a segment that meets a ring but not its inside meets its border; for lines the pairs found by the search are exactly the meeting pairs; a segment inside a ring for part of its way leaves it on both sides, and the counting callback misses at most one segment per side (`TouchMeet.v`); rings whose borders keep out of each other are followed to a first border at a height where the borders do not meet |
| C55, C56 | allocation sizes | the number of rectangles written depends on the counts only; the counting pass of the y-stripes bounds the filling pass, stripe by stripe |
| C57 | moving | a shifted shape (`SpecMove.v`) has the shifted points; exactness (C49, C50) before and after; turns, hence convexity, do not change |
| C58 | circles | the angle after k additions is within k * 2^-44 of the exact one (Flocq); for large step counts every addition within one binade adds the same number of units (`CircleJump.v`), so 2 * 10^8 additions are computed in some 60 jumps |
| C59 | distances | on the grid the squares are exact and `fsqrt` rounds the real root (Flocq's Bsqrt); the foot point is analysed with one relative error per operation; clamping and rounding commute |
| C61 | rectangles | the ring on the stack and the ring built from the corners agree in everything intersects looks at; then C49 |
| C62 | growing memory | the first cells hold the contents and the capacity fits the block, kept by every step; a potential of five times the capacity pays for the moves |
| C63 | dimension | induction over nested geometries |
| C64 | form of WKT | the name buffer begins like the text up to the first blank; the balanced slices of C29 |
| C65 | Z and M in WKT | the dimensions asked for and found, through positions, groups of positions and groups of groups |
| C66 | numbers read | the parts of a decimal; Flocq's rounding for what the nearest double is |
| C67 | compactness scores | real arithmetic on the area (shoelace formula), the perimeter (sum of distances) and the fraction that M_PI is |
| C60 | perimeters | every partial sum is zero or at least one, so all errors are relative and add up to 3 n 2^-53 |
| C53 | all predicates | an empty ring has no segments and no index; nested induction over both geometries |
| C31 | number printing and reading | the decimal lies in the rounding interval of the double, so reading rounds to it |
| C29 | WKT reader | the outer group is balanced, so every group inside it is; every loop turn eats a byte |
| C26, C43, C48 | GeoJSON reader | every step along json_next leaves a strictly shorter text; in RFC texts a token stands for a value of known depth |
| C47 | number printing and reading | the truncated table products are exact: for each of the 617 tables the multiples that come closest to an integer are bounded by continued fractions (checked by `vm_compute`) |
| C28 | WKT writer and reader | the text of a shape as a function; the writer types it, the reader reads it back |
| C30 | GeoJSON writer and reader | as C28; what a geometry carries besides its shape is a tree of notes; an object text is the list of its members, which the writer merges and the reader takes apart |
| C33, C40, C42 | accessors, foreach, tg_poly_new | case analysis, nested induction |
| C35, C36 | turn and area accumulators | fold invariants; exact area on integers |
| C37, C38 | environment encoding, index arithmetic | arithmetic |


## Findings

Statements of `properties.jsonl` that are false of the code, each with a
theorem named `..._refuted` and a concrete input:

* C01: rings whose last point does not repeat the first; y-stripes with a flat
  ring or a point near the top edge.
* C02, C03, C05: coordinates beyond the range of `float`, where the index holds
  infinities, or below it; C03: the segment test is not symmetric and its argument order depends on
  which series is indexed.
* C04: the closing segment of an unclosed ring is delivered out of order.
* C06: an empty part counts as the point (0,0).
* C08: the segment test depends on the direction of a segment.  C09: very small coordinates.
* C12: the build without atomics counts nothing: `*rc++` moves the pointer, and
  rc_release reads the int before the object.
* C13, C41: a copied ring keeps the pointer to the index of the original, which
  is used after the original is freed; the same for y-stripes and for the index
  of a multi with 64 or more children.  Copying a copy of an indexed ring takes the
  distance between the two blocks for a size.  Empty line and polygon geometries
  cannot be copied.
* C14: tg_poly_new does not notice that copying a ring failed.
* C15, C16, C19-C21: WKB/GeoBIN inputs that are read beyond their end, written
  differently or misreported.
* C23, C24, C44: JSON texts accepted or rejected against RFC 8259; escapes.  C25:
  a member whose key has a surrogate pair is not found under its name.
* C34: tg_line_covers_line may not return, and may answer true for a line that
  leaves the first; C32: so equals is not symmetric.
* C46: polygons cover segments that leave them: between two corners of a concave
  ring, and in a ring taken for convex.
* C49: a dart-shaped hole is taken for convex, so a line between its arms is found disjoint from
  the polygon it crosses.  C51: y-stripes again.  C52: touches is not symmetric for collections.
* C54: two rectangles side by side touch only if they share a whole side or a corner: when the side of one is
  strictly within the side of the other the answer is false, as for a corner on a side and for two triangles with a
  common side.  A line and its first half are found to touch although they overlap, and so are a ring and a line that
  runs along one of its sides and on through its inside (the count of crossings is reset).
* C56: tg_poly_memsize counts a struct tg_ring instead of a pointer for every hole, 72 bytes too many each.
* C57: moving a ring replaces its own index spread by the default one; an unclosed ring whose index was sound answers wrongly after a move by zero. A polygon with a NULL hole moves to NULL. Y-stripes of a ring moved so far that its height rounds to zero are undefined behaviour.
* C59: off the integer grid the distance functions overflow and underflow: (1e200, 0) is at distance infinity from
  (0, 0), and (1e-200, 0) at distance 0 (`C59_unbounded_refuted`).
* C58: tg_circle_new adds up rounded angles: with 235520873 steps (3.8 GB of points) it writes one point past the end of
  its allocation, with 301561927 it reads points it never wrote; steps = INT_MIN overflows.  Up to 2^26 + 1 steps are safe.
* C53: a polygon touches a line of one point on its border, which is empty and does not intersect it.
* C26: the JSON check ends a string at a bad escape, the tokens do not, so GeoJSON
  with flat brackets is read as collections nested without limit.
* C29, C48: a WKT or GeoJSON polygon of zero height read with y-stripes converts NaN to int.
* C28: WKT with more than 1024 opening parentheses is refused, nested or not, so
  what the writer wrote is not read back; a line of no points is written LINESTRING().
* C30: GeoJSON turns M into Z and gives empty multi-geometries Z and M; a member kept with a
  bad escape makes the text unreadable; 511 nested collections are written but not read.
* C47: subnormal numbers are printed as 0.
* C31: in the default mode some multiples of 1000 are printed with an exponent.
* C33: accessor bound off by one.  C35: convexity of rings with a repeated or
  closing point.  C38: sizes that overflow.  C39: children on one vertical line.
* C40, C42: early stop and NULL holes.

## Trusted base

* Coq's kernel (8.16.1), including `vm_compute`.
* The axioms printed by `Print Assumptions`, all of the standard library.
  Theorems that speak about real numbers depend on
  `ClassicalDedekindReals.sig_forall_dec`, `ClassicalDedekindReals.sig_not_dec`,
  `Classical_Prop.classic` and
  `FunctionalExtensionality.functional_extensionality_dep`:
  C01_even_odd_partial, C01_index_independent_partial, C02_rect_search_partial,
  C03_pairs_exact_partial, C03_pairs_partial, C04_nearest_inside_partial,
  C04_refuted_unclosed, C05_any_order_partial,
  C05_indexed_partial, C05_small, C08_symmetric_partial, C09_intersects_exact,
  C10_covers_exact, C10_covers_exact_24, C10_ray_exact, C10_ring_even_odd,
  C21_parsed_partial, C21_readers_partial, C31_integer_text_reads_back,
  C31_integer_text_plain_partial, C28_round_trip_partial, C28_refuted,
  C22_wkt, C22_geojson, C27_wkt, C27_geojson, C30_round_trip_partial, C30_same_partial, C30_depth_refuted,
  C47_reads_back_partial, C35_closed_refuted,
  C35_closed_turns_partial, C35_convex_sign_test, C35_convex_turns_partial,
  C35_repeated_point_refuted, C36_area_not_negative, C36_repeated_first_point,
  C36_winding, C34_first_segment_partial, C34_sound_refuted,
  C34_two_points_partial, C38_index_covers_partial, C39_defined_partial,
  C45_intersects, C46_line_vertices_partial, C46_refuted,
  C49_intersects_exact_partial, C49_symmetric_partial, C49_refuted, C50_points_exact,
  C51_index_independent_partial, C51_points_partial, C51_refuted, C52_refuted,
  C54_shares_partial, C54_lines_partial, C54_insides_partial, C54_refuted,
  C54_refuted_along,
  C57_shifted_partial, C57_moved_partial, C57_refuted_spread,
  C58_circle_partial, C58_box, C58_refuted, C59_point_point, C59_rect_rect, C59_point_rect, C59_point_segment,
  C59_unbounded_refuted, C60_length, C61_geom_intersects_rect_partial,
  C61_parts_intersect_rect_partial, C61_line_covers_rect_refuted, C66_nearest, C67_not_negative_partial,
  C67_value, C67_grid, C67_bounded_partial; C61_rect_covers on
  all but `sig_not_dec`, C61_rect_search on the first and the last; and
  C09_tiny_refuted and C31_integer_text_plain_refuted on the first and the last of
  them.
  Every other theorem is closed under the global context.
* That the definitions transcribe the cited lines.  The C library's
  `strtod` is modelled as correctly rounding decimals (`Num.v`) and its `sqrt` as correctly rounding (`F64.fsqrt`), in the C
  locale.  Not modelled: the text formats apart from what is listed above, the allocator itself, floating-point contraction by the
  compiler, the relaxed memory order of the atomic counters.

## Mutation tests

`seeded/LOG.jsonl` lists wrong programs made by editing model definitions, the
claim each one breaks and the proofs that failed.
