{"id": "C01", "title": "WKB round trip", "statement": "wkb.DecodeBytes(wkb.EncodeBytes(g)) returns a geometry identical (bit for bit in every coordinate) to g, for either byte order, for Points, MultiPoints, LineStrings, MultiLineStrings, Polygons, MultiPolygons and arbitrarily nested Collections, provided every count fits a uint32 and every ring is in the library's open form (first point is not repeated at the end and is not NaN).", "quantifier": "every geometry value of any size and nesting depth, every coordinate bit pattern, both byte orders", "why_tests_cant": "nesting depth, ring lengths and 2^64 coordinate patterns cannot be enumerated; tests use a handful of literals", "anchors": ["encoding/wkb/wkb.go: EncodeBytes, EncodeWithByteOrder, DecodeBytes, Decode", "encoding/wkb/internal/encode/encode.go: Encoder", "encoding/wkb/internal/decode/decode.go"]}
{"id": "C02", "title": "WKB decoding is exact about where a geometry ends", "statement": "Decoding an encoding followed by arbitrary further bytes returns the same geometry and leaves exactly the further bytes unread; decoding any proper prefix of an encoding is an error, never a shorter geometry.", "quantifier": "every geometry, every suffix, every truncation point", "why_tests_cant": "every truncation point of every message is an unbounded family", "anchors": ["encoding/wkb/internal/decode/decode.go", "encoding/wkb/wkb.go: Decode"]}
{"id": "C03", "title": "WKB encoder closes rings, decoder opens them", "statement": "Every non-empty ring written by the WKB encoder has first and last written points equal, unless its first point has a NaN coordinate; encoding an already closed ring and its open form gives the same bytes; decoding removes exactly one closing point from each ring of two or more points whose ends are equal.", "quantifier": "every polygon and multipolygon", "why_tests_cant": "depends on every ring content including NaN and signed zeros", "anchors": ["encoding/wkb/internal/encode/encode.go: Polygon", "encoding/wkb/internal/decode/decode.go: LinerRing"]}
{"id": "C04", "title": "WKB encoding fails exactly on unknown geometry", "statement": "EncodeBytes returns an error if and only if the geometry, or some member of a nested collection, is not one of the supported geometry kinds; on error no bytes are returned.", "quantifier": "every geometry tree including unsupported leaves at any depth", "why_tests_cant": "position and depth of the bad leaf are unbounded", "anchors": ["encoding/wkb/internal/encode/encode.go: Geometry, Collection", "encoding/wkb/wkb.go: EncodeBytes"]}
{"id": "C05", "title": "GeoPackage binary header round trip", "statement": "For every header built by NewBinaryHeader, DecodeBinaryHeader(Encode(h)) yields a header with the same magic, version, SRS id, envelope, envelope type, emptiness, standard flag and byte order; Size equals the number of bytes encoded; trailing bytes are ignored.", "quantifier": "every SRS id in int32, every envelope of every type, all flag combinations, both byte orders", "why_tests_cant": "2^32 SRS ids times 2^64 floats times flags", "anchors": ["encoding/gpkg/binary_header.go: NewBinaryHeader, EncodeTo, Encode, DecodeBinaryHeader, Size"]}
{"id": "C06", "title": "GeoPackage decoding rejects foreign data", "statement": "DecodeBinaryHeader returns an error when the first two bytes are not the magic number 'GP'.", "quantifier": "every byte string", "why_tests_cant": "the set of foreign byte strings is infinite", "anchors": ["encoding/gpkg/binary_header.go: DecodeBinaryHeader"]}
{"id": "C07", "title": "GeoPackage geometry blob round trip", "statement": "For every encodable geometry g, DecodeGeometry(NewBinary(srs,g).Encode()) returns geometry g, SRS id srs, and an envelope equal to the extent of g (NaN envelope and empty flag when g is empty); header decoding never reads outside the blob.", "quantifier": "every srs id and geometry", "why_tests_cant": "unbounded geometries", "anchors": ["encoding/gpkg/binary_header.go: NewBinary, StandardBinary.Encode, DecodeGeometry"]}
{"id": "C08", "title": "MVT zig-zag integers round trip", "statement": "Zig-zag decoding inverts zig-zag encoding exactly for the deltas that fit in 32 bits (and for no others), and every uint32 is the encoding of the delta it decodes to.", "quantifier": "every integer delta", "why_tests_cant": "2^32 and 2^64 values", "anchors": ["encoding/mvt/feature.go: encodeZigZag", "encoding/mvt/decode.go: decodeZigZag"]}
{"id": "C09", "title": "MVT command integers round trip", "statement": "A command integer built from an id in {1,2,7} and a count below 2^29 decodes to the same id and count.", "quantifier": "every id and count", "why_tests_cant": "2^29 counts", "anchors": ["encoding/mvt/feature.go: NewCommand, Command.ID, Command.Count"]}
{"id": "C10", "title": "MVT geometry round trip", "statement": "DecodeGeometry(type, encodeGeometry(g)) gives back the same integer-coordinate point, multipoint, linestring or multilinestring; the decoder started anywhere consumes every integer the encoder wrote.", "quantifier": "every geometry whose coordinates and deltas fit the 32-bit wire format", "why_tests_cant": "unbounded number of parts and points; every position of the moving cursor", "anchors": ["encoding/mvt/feature.go: encodeGeometry, cursor", "encoding/mvt/decode.go: DecodeGeometry"]}
{"id": "C11", "title": "MVT polygon rings survive the tile", "statement": "Encoding a polygon and decoding it yields the same rings (as cyclic integer point sequences, outer rings clockwise in tile space and inner rings counter-clockwise), one polygon per outer ring, skipping inner rings with zero area; a polygon whose outer ring has zero area disappears together with its holes.", "quantifier": "every polygon and multipolygon with integer coordinates", "why_tests_cant": "unbounded rings", "anchors": ["encoding/mvt/feature.go: encodeLinearRing, encodePolygon", "encoding/mvt/decode.go: decodePoly"]}
{"id": "C12", "title": "MVT tag tables are lossless", "statement": "For every list of features, the tag integers produced for a feature index in range into the layer's key and value tables and looking them up gives back exactly that feature's non-nil attributes; the key table has no duplicates.", "quantifier": "every list of features and attribute maps", "why_tests_cant": "unbounded maps; iteration order of Go maps is arbitrary", "anchors": ["encoding/mvt/feature.go: keyvalMapsFromFeatures, keyvalTagsMap"]}
{"id": "C13", "title": "A tile never holds two layers with the same name", "statement": "After any sequence of AddLayers calls on a Tile, layer names are pairwise distinct, nil layers are skipped, and a call that would add a duplicate name fails.", "quantifier": "every history of AddLayers calls", "why_tests_cant": "histories are unbounded", "anchors": ["encoding/mvt/tile.go: AddLayers, Layers"]}
{"id": "C14", "title": "Layer feature list operations", "statement": "AddFeatures appends the given features in order, keeping those already there; RemoveFeature removes exactly the features at the given indexes; Features returns a copy, so changing it does not change the layer.", "quantifier": "every layer content and index list", "why_tests_cant": "unbounded lists", "anchors": ["encoding/mvt/layer.go: AddFeatures, RemoveFeature, Features"]}
{"id": "C15", "title": "MVT geometry decoding never crashes on hostile tiles", "statement": "DecodeGeometry returns either a geometry or an error for every geometry type and every sequence of uint32; it never panics.", "quantifier": "every uint32 sequence", "why_tests_cant": "infinite input space; a crash needs one specific malformed sequence", "anchors": ["encoding/mvt/decode.go: DecodeGeometry, decodePoint, decodeLineString, decodePoly"]}
{"id": "C16", "title": "The extent of points is the least box containing them", "statement": "NewExtent and NewExtentFromPoints return nil exactly for no points; otherwise the box contains every point (if no coordinate is NaN) and each of its four sides is the coordinate of some given point, so no smaller box contains them.", "quantifier": "every list of points", "why_tests_cant": "unbounded lists; all orderings of the points", "anchors": ["bbox.go: NewExtent, NewExtentFromPoints"]}
{"id": "C17", "title": "Growing an extent", "statement": "After Add, AddPoints, AddPointers or AddGeometry the extent contains the old extent and everything added, and nothing smaller does; growing is independent of the order of additions and repeating an addition changes nothing.", "quantifier": "every extent and every history of additions (no NaN)", "why_tests_cant": "all orders of all histories", "anchors": ["bbox.go: Add, AddPoints, AddPointers, AddGeometry"]}
{"id": "C18", "title": "Extent.Contains is set inclusion", "statement": "e.Contains(f) is true exactly when every point contained in f is contained in e (for non-empty f), it is reflexive, transitive and antisymmetric, and the nil extent contains everything.", "quantifier": "every pair of extents and every point", "why_tests_cant": "continuum of points", "anchors": ["bbox.go: Contains, ContainsPoint, ContainsLine"]}
{"id": "C19", "title": "Extent.Intersect is set intersection", "statement": "When e.Intersect(f) reports true, a point lies in the result exactly when it lies in both e and f; it reports false exactly when the boxes share no interior; result does not depend on argument order and the inputs are unchanged.", "quantifier": "every pair of extents and every point", "why_tests_cant": "continuum of boxes and points", "anchors": ["bbox.go: Intersect, Clone"]}
{"id": "C20", "title": "Extent.ContainsGeom agrees with point containment", "statement": "For a non-universe extent e, ContainsGeom(g) is true exactly when e contains every coordinate of g.", "quantifier": "every extent and geometry", "why_tests_cant": "unbounded geometries", "anchors": ["bbox.go: ContainsGeom"]}
{"id": "C21", "title": "Extent from geometry", "statement": "NewExtentFromGeometry(g) equals NewExtent of GetCoordinates(g) for every NaN-free geometry; it is nil without error exactly when g has no coordinates.", "quantifier": "every geometry tree", "why_tests_cant": "nesting depth unbounded", "anchors": ["bbox.go: NewExtentFromGeometry", "geom.go: getCoordinates, getExtent"]}
{"id": "C22", "title": "Scaling and expanding keep extents well formed", "statement": "For finite sides and a finite factor, ScaleBy and ExpandBy return an extent whose minimum does not exceed its maximum; expanding by s >= 0 contains the original; ScaleBy and ExpandBy leave the receiver unchanged.", "quantifier": "every extent and every factor", "why_tests_cant": "continuum", "anchors": ["bbox.go: ScaleBy, ExpandBy"]}
{"id": "C23", "title": "GetCoordinates and ExtractLines traverse the whole geometry", "statement": "GetCoordinates returns every coordinate of the geometry, in order, exactly once; ExtractLines returns exactly the consecutive segments of every line and, for every ring of more than two points that is not explicitly closed, the closing segment; both fail exactly when an unknown geometry occurs.", "quantifier": "every geometry tree", "why_tests_cant": "nesting depth unbounded", "anchors": ["geom.go: GetCoordinates, ExtractLines"]}
{"id": "C24", "title": "Clone and ApplyToPoints preserve structure", "statement": "Clone(g) equals g and shares no storage with it; ApplyToPoints(g,f) has the same type and shape as g with every coordinate replaced by f's first two results, fails exactly when f fails or returns fewer than two values on some coordinate, and calls f on coordinates in order.", "quantifier": "every supported geometry and every function f", "why_tests_cant": "functions and geometries unbounded", "anchors": ["utils.go: Clone, ApplyToPoints"]}
{"id": "C25", "title": "AsSegments gives back the line", "statement": "LineString.AsSegments of n points returns the n-1 consecutive segments; Polygon.AsSegments returns, for each ring of at least three points, a closed chain of segments visiting each vertex once; rings with fewer points contribute nothing.", "quantifier": "every linestring and polygon", "why_tests_cant": "unbounded lengths", "anchors": ["line_string.go: AsSegments", "polygon.go: AsSegments", "multi_polygon.go: AsSegments"]}
{"id": "C26", "title": "Float comparison", "statement": "Compare.Float is symmetric, reflexive, tells infinities apart from finite values and from each other by sign, and two finite floats within the tolerance compare equal whatever the bit tolerance.", "quantifier": "every pair of float64 values and every tolerance", "why_tests_cant": "2^128 pairs", "anchors": ["cmp/compare.go: Float, FloatSlice"]}
{"id": "C27", "title": "Point ordering is a strict weak order on exact coordinates", "statement": "ByXY ordering (x first then y) is irreflexive, transitive and total up to equality on NaN-free points, so sorting gives a unique order.", "quantifier": "every triple of points", "why_tests_cant": "2^384 triples", "anchors": ["cmp/by_xy.go: ByXY", "cmp/helper.go: XYLessPoint"]}
{"id": "C28", "title": "Rotating a ring to its leftmost point", "statement": "RotateToLeftMostPoint and RotateToIdx only rotate: the result is the same cyclic sequence, and after RotateToLeftMostPoint the first point is a minimum in x-then-y order.", "quantifier": "every ring and index", "why_tests_cant": "unbounded ring lengths", "anchors": ["cmp/helper.go: FindMinPointIdx, RotateToIdx, RotateToLeftMostPoint"]}
{"id": "C29", "title": "Geometry equality is an equivalence at least on the obvious cases", "statement": "Every NaN-free geometry equals itself; MultiPointEqual ignores order; LineStringEqual ignores the starting point; comparing geometries never changes them; equality is symmetric.", "quantifier": "every pair of geometries", "why_tests_cant": "unbounded", "anchors": ["cmp/compare.go: GeometryEqual, MultiPointEqual, LineStringEqual, MultiLineEqual, PolygonEqual"]}
{"id": "C30", "title": "SetDefault hands over the comparator atomically", "statement": "When several goroutines call SetDefault, each previously installed comparator is returned to exactly one caller and the last stored one stays installed.", "quantifier": "every interleaving of any number of goroutines", "why_tests_cant": "schedules cannot be enumerated by tests", "anchors": ["cmp/default_compare.go: SetDefault, DefaultCompare"]}
{"id": "C31", "title": "Ring orientation laws", "statement": "Orientation of a ring flips when the ring is reversed or when y is flipped, does not change when the ring is rotated to another starting point or translated, and equals the sign of the signed area; fewer than three points are colinear.", "quantifier": "every ring (exact arithmetic)", "why_tests_cant": "unbounded rings", "anchors": ["winding/winding.go: Orient, Order.OfPoints, Orientation"]}
{"id": "C32", "title": "RectifyPolygon yields correctly wound rings", "statement": "Every ring of RectifyPolygon's result is non-degenerate, the first is clockwise and the others counter-clockwise, each is the original ring or its reversal, no other ring is lost, and nil is returned exactly when the first ring is degenerate or missing.", "quantifier": "every polygon, both y directions", "why_tests_cant": "unbounded polygons", "anchors": ["winding/winding.go: RectifyPolygon"]}
{"id": "C33", "title": "Douglas-Peucker keeps endpoints, order and tolerance", "statement": "The simplified line is a subsequence of the input that starts and ends with the input's end points; every dropped vertex is within the tolerance of the segment that replaced it; simplification terminates for every input and distance function.", "quantifier": "every linestring, tolerance and distance function", "why_tests_cant": "unbounded lines, recursion depth", "anchors": ["planar/simplify/douglaspeucker.go: simplify, Simplify"]}
{"id": "C34", "title": "Simplify preserves geometry structure", "statement": "planar.Simplify returns the same kind of geometry with the same number of parts for points, lines, multilines and collections, never adds points, and does not modify its input.", "quantifier": "every geometry and simplifier", "why_tests_cant": "unbounded", "anchors": ["planar/simplify.go: Simplify"]}
{"id": "C35", "title": "KD-tree insertion", "statement": "After any sequence of Inserts the tree contains exactly the distinct inserted points; inserting an existing point reports ErrDuplicateNode and returns the existing node; on each level the left subtree has strictly smaller and the right subtree greater-or-equal coordinate, and each node's box contains its whole subtree.", "quantifier": "every insertion history", "why_tests_cant": "unbounded histories", "anchors": ["planar/index/kdtree/kdtree.go: Insert", "planar/index/kdtree/kdnode.go"]}
{"id": "C36", "title": "KD-tree nearest neighbours come in order", "statement": "The nearest neighbour iterator returns every point of the tree exactly once, in non-decreasing distance from the query point.", "quantifier": "every tree built by insertion and every query point", "why_tests_cant": "unbounded trees and all pops of the heaps", "anchors": ["planar/index/kdtree/nearest_neighbor_iterator.go"]}
{"id": "C37", "title": "R-tree search is exact", "statement": "After any history of Inserts, SearchIntersect(bb) returns exactly the inserted objects whose bounds overlap bb with positive extent in every dimension, each as often as inserted; Size is the number of inserted objects; no node ever exceeds MaxChildren entries.", "quantifier": "every insertion history and every query rectangle", "why_tests_cant": "unbounded histories, node splits at every level", "anchors": ["internal/rtreego/rtree.go: Insert, insert, split, SearchIntersect", "internal/rtreego/geom.go: boundingBox, intersect"]}
{"id": "C38", "title": "R-tree bulk loading is exact", "statement": "A tree built from n objects in one go holds exactly those objects and search over it is exact.", "quantifier": "every object list and every branching factor", "why_tests_cant": "unbounded", "anchors": ["internal/rtreego/rtree.go: NewTree, bulkLoad, omt, walkPartitions"]}
{"id": "C39", "title": "Tile families", "statement": "FamilyAt(z') of a tile visits, for z' <= z, exactly the one ancestor containing it, and for z' > z exactly the 4^(z'-z) descendants, each once; visiting stops when the callback returns false.", "quantifier": "every tile and zoom with room below 2^(bits)", "why_tests_cant": "4^k descendants", "anchors": ["slippy/tile.go: FamilyAt"]}
{"id": "C40", "title": "FromBounds covers the bounds", "statement": "FromBounds(grid, bounds, z) returns a set of distinct tiles that form a full rectangle of columns and rows between the tiles of the two corners.", "quantifier": "every bounds and zoom", "why_tests_cant": "unbounded", "anchors": ["slippy/tile.go: FromBounds"]}
{"id": "C41", "title": "Tile order is a strict total order", "statement": "Tile.Less is a strict total order on tiles (zoom, then x, then y).", "quantifier": "every triple of tiles", "why_tests_cant": "2^90 triples", "anchors": ["slippy/tile.go: Less"]}
{"id": "C42", "title": "WKT round trip", "statement": "The text written for a geometry whose parts have enough points is read back as that geometry without its NaN points, consecutive duplicate points and closing points, and nothing else is read back. Coordinates written with p digits and no exponent come back with a relative error below 10^(1-p) and do not change any more afterwards; floats of decimals of at most p digits come back exactly.", "quantifier": "every Go value the encoder accepts, strict or not, any precision from 1 to 15, any bytes after the text", "why_tests_cant": "unbounded nesting and sizes; all floats; both halves of the codec together", "anchors": ["encoding/wkt/wkt_encode.go", "encoding/wkt/wkt_decode.go"]}
{"id": "C43", "title": "WKT empty geometries", "statement": "The text produced for an empty geometry (POINT EMPTY, ...) can be read back.", "quantifier": "all geometry kinds", "why_tests_cant": "small but the property spans the two halves of the codec", "anchors": ["encoding/wkt/wkt_encode.go", "encoding/wkt/wkt_decode.go"]}
{"id": "C44", "title": "GeoJSON round trip", "statement": "Unmarshalling the GeoJSON of a feature, of a collection of features or of a bare geometry returns the same value up to closing of polygon rings (and integers in properties as the nearest float64); a geometry of an unknown type or with NaN or infinite coordinates is refused.", "quantifier": "every geometry tree with finite coordinates, every id, every tree of properties", "why_tests_cant": "unbounded", "anchors": ["encoding/geojson/geojson.go: Geometry.MarshalJSON, UnmarshalJSON"]}
{"id": "C45", "title": "GeoJSON encoding leaves its input alone", "statement": "Marshalling a geometry does not modify the geometry passed in.", "quantifier": "every polygon", "why_tests_cant": "needs every aliasing situation", "anchors": ["encoding/geojson/geojson.go: closePolygon"]}
{"id": "C46", "title": "Segment intersection is symmetric, exact on a grid, and on both segments", "statement": "SegmentIntersect and LineIntersect do not depend on the order of the two segments, for any float64 values. For end points on a common binary grid that are at most 2^25 grid steps apart, SegmentIntersect reports ok exactly if the segments are not parallel and share a point, and LineIntersect exactly if the lines are not parallel. For coordinates up to 2^16 grid steps the reported point is the exact common point, correctly rounded, and lies inside the bounding boxes of both segments.", "quantifier": "every pair of segments (symmetry), every pair on such a grid (exactness)", "why_tests_cant": "The claim is about all pairs of float64 segments, including rounding in the determinant, the parameters and the quotients", "anchors": ["planar/line_intersect.go: LineIntersect, SegmentIntersect"]}
{"id": "C47", "title": "Clipping points and lines", "statement": "Clipping a multipoint keeps exactly the points in the box, in order. Clipping a line keeps its segments in order: each segment of the line gives nothing or one segment with both ends in the box, in the same direction; a segment with both ends in the box is kept as it is; a line is only cut where it leaves the box. If the line does not pass through the corners of the box, each segment gives exactly its points in the box, the ends correctly rounded. Clipping never panics; the only errors are a line of one vertex, an unsupported kind of geometry, and cancellation.", "quantifier": "every geometry, box and context; positions for every line and box on a grid of up to 2^16 steps from the origin", "why_tests_cant": "the result depends on float rounding of crossings and on the positions of all vertices relative to the box", "anchors": ["planar/clip/clip.go: Geometry", "planar/clip/linestring.go: LineStringer, MultiLineStringer, uniqueSegmentIntersectPoints", "planar/clip/point.go: MultiPointer"]}
{"id": "C48", "title": "The centroid is the centre of mass", "statement": "PointsCentriod of the vertices of a ring is the centre of mass of the region it bounds, whether or not the closing point is repeated.", "quantifier": "every ring of at least three points that bounds an area", "why_tests_cant": "continuum of positions; the tests use one shape at the origin", "anchors": ["planar/centriod.go: PointsCentriod"]}
{"id": "C49", "title": "Quad-edge algebra holds in every reachable structure", "statement": "After any sequence of New, Splice, Connect, Swap and Delete: Rot four times is the identity, Rot twice is Sym, InvRot inverts Rot, OPrev is the inverse of ONext, LNext/RNext/DNext are permutations with inverses LPrev/RPrev/DPrev. Connect puts the new edge between its two arguments on their left face with the right end points; Swap turns the diagonal of two triangles into the other diagonal.", "quantifier": "every operation history on any number of edges", "why_tests_cant": "histories unbounded; pointer structures", "anchors": ["planar/triangulate/delaunay/quadedge/edge.go", "planar/triangulate/delaunay/quadedge/topo.go: Splice, Swap, Delete"]}
{"id": "C50", "title": "Splice is its own inverse and joins or splits rings", "statement": "Splice(a,b) twice restores the structure; Splice merges two different origin rings (and left-face rings) into one or splits one ring into two, in the order stated in its documentation; Delete isolates an edge, leaves the rest of the ring in order and joins the faces at its sides.", "quantifier": "every structure and pair of edges", "why_tests_cant": "unbounded", "anchors": ["planar/triangulate/delaunay/quadedge/topo.go: Splice, Delete"]}
{"id": "C51", "title": "Unique edge identifiers under concurrency", "statement": "Quad-edges created by concurrent goroutines all receive distinct identifiers.", "quantifier": "every interleaving", "why_tests_cant": "schedules", "anchors": ["planar/triangulate/delaunay/quadedge/quadedge.go: Init"]}
{"id": "C52", "title": "Cutting a ring", "statement": "The walker's cut returns exactly the vertices between two indices of a ring, also around its end, and leaves the others in their order; it panics only for indices outside the ring. Removing the paths a ring walks forth and back keeps its area and invents no vertices.", "quantifier": "every ring and every pair of indices", "why_tests_cant": "unbounded rings, all pairs of indices including wrap-around", "anchors": ["planar/makevalid/walker/cut.go: cut, removeBridge"]}
{"id": "C53", "title": "UTM zones", "statement": "A latitude gets the letter of the UTM band that contains it, and positions from 80 S to below 84 N get the zone number of the UTM grid, with the exceptions for Norway and Svalbard; the western side of a zone is exact up to 2^-43 degrees, and exact for longitudes that are multiples of 2^-44 degrees. Numbers are 1 to 60 up to 2^-44 degrees before 180 E. The only error is for latitudes outside 80 S to 84 N.", "quantifier": "every float64 longitude from -180 to 180 and every float64 latitude", "why_tests_cant": "a continuum of positions, and rounding at the sides of zones", "anchors": ["planar/coord/utm/utm.go: NewZone, ZoneNumberFromLngLat, ZoneLetterForLat, CentralMeridian"]}
{"id": "C54", "title": "Hit maps label points by the rings of the polygons", "statement": "A hit map made of polygons labels a point Inside exactly if some outer ring covers it (in or on, even-odd rule) and no hole of any of them has it strictly within, Outside otherwise. New on any geometry answers Inside exactly if one of the polygons or multipolygons inside it does, gives no hit map for points and lines, and fails exactly if something inside is no geometry. NewOrderedHM over any hit maps, in any order, answers Inside exactly if one of them does. The point is first moved to the nearest one with 20 significant bits, at most 2^-20 of each coordinate.", "quantifier": "every list of polygons (any rings, crossing or not, empty or not) and every geometry, nested to any depth, with integer coordinates up to 512, every such point; for OrderedHM every list of hit maps and every point; for the rounding every float64 up to 2^1023; every sort routine", "why_tests_cant": "rings are unboundedly many and of unbounded length, collections nest without bound", "anchors": ["planar/makevalid/hitmap/hitmap.go: New, OrderedHM.LabelFor, NewOrderedHM", "planar/makevalid/hitmap/polygon_hitmap.go: NewFromPolygons, PolygonHM.LabelFor", "planar/makevalid/hitmap/ring.go: NewRing, bySmallestArea"]}
{"id": "C55", "title": "Destructure cuts polygons into segments that meet at ends", "statement": "makevalid.Destructure returns segments from left to right which together cover exactly the edges of the polygons; with a clip box that does not contain the polygons, exactly the edges as far as they are in the box, and the sides of the box. Where two segments which are not parallel meet, both end; if no edge ends inside a parallel one alone, two segments share nothing but ends or are the same. The result begins with all of the segments, each once, in ascending order.", "quantifier": "every multipolygon (any rings, crossing or not) with integer coordinates up to 512 whose edges meet at integers, every such clip box, every comparator that tells such points apart, every sort routine; for unique every list of such segments", "why_tests_cant": "unboundedly many edges crossing each other and the box in any order", "anchors": ["planar/makevalid/makevalid.go: Destructure, unique, ByXYPoint, ByXYLine", "planar/intersect/intersect.go: EventQueue.FindIntersects"]}
{"id": "C56", "title": "Circles approximated by segments", "statement": "For every k from 3 on, Circle.AsPoints(k) has k points and Circle.AsSegments(k) is the closed chain through them in order; no call panics.", "quantifier": "every circle and every k >= 3", "why_tests_cant": "boundary values of k and wrap-around", "anchors": ["circle.go: AsPoints, AsSegments"]}
{"id": "C57", "title": "WKB decoder accepts every well-formed layout", "statement": "Every well-formed WKB serialisation of a geometry, whichever byte order each nested element uses, decodes to that geometry with exactly one closing point removed from each explicitly closed ring, and leaves the following bytes unread.", "quantifier": "every geometry tree, every assignment of byte orders to nested elements, every suffix", "why_tests_cant": "the library's own encoder never mixes byte orders, so its tests cannot reach these files; the family is unbounded", "anchors": ["encoding/wkb/internal/decode/decode.go", "encoding/wkb/wkb.go: Decode"]}
{"id": "C58", "title": "GeoPackage envelope has the standard's order", "statement": "The envelope written by NewBinary for a non-empty geometry lists minx, maxx, miny, maxy in that order, as GeoPackage clause 2.1.3.1.1 requires for envelope code 1.", "quantifier": "every geometry", "why_tests_cant": "a self-consistent reader and writer agree with each other for every test input while both disagree with the standard", "anchors": ["encoding/gpkg/binary_header.go: NewBinary", "bbox.go: Extent"]}
{"id": "C60", "title": "MVT geometry integers follow the tile specification", "statement": "The integers produced for points, lines and polygons are exactly the MoveTo/LineTo/ClosePath commands and zig-zag parameter integers the Mapbox specification prescribes for that geometry, so any conforming reader gets the same shapes.", "quantifier": "every point, line and polygon geometry with integer coordinates whose steps fit 32 bits", "why_tests_cant": "unbounded geometry sizes; a mistake made the same way in the encoder and the decoder passes every round trip test", "anchors": ["encoding/mvt/feature.go: encodeGeometry, encodeCmd, encodeLinearRing"]}
{"id": "C61", "title": "MVT geometry encoding fails cleanly", "statement": "Encoding a geometry never panics, and reports an error exactly for nil, unknown and collection geometries.", "quantifier": "every geometry", "why_tests_cant": "infinite input space", "anchors": ["encoding/mvt/feature.go: encodeGeometry"]}
{"id": "C62", "title": "MVT features of a collection", "statement": "NewFeatures makes one feature for each simple geometry in a (nested) collection, in order and with none left out, and each of them is a geometry the encoder accepts.", "quantifier": "every geometry tree", "why_tests_cant": "unbounded nesting", "anchors": ["encoding/mvt/feature.go: NewFeatures"]}
{"id": "C59", "title": "MVT attribute values keep their value", "statement": "Every attribute value of a supported type (strings, Stringers, booleans, all integer and float types) is written as a tile value holding that same value.", "quantifier": "every attribute value", "why_tests_cant": "every integer and float of every kind", "anchors": ["encoding/mvt/layer.go: vectorTileValue, valMapToVTileValue"]}
{"id": "C63", "title": "A tile survives encoding and decoding", "statement": "Encoding a tile and decoding the result gives the same layers in order with their names and extents, and in each layer the same features in order with their ids, geometries (as C10/C11) and attributes, whatever order Go visits the attribute maps in.", "quantifier": "every tile whose geometries have integer coordinates and whose attributes are of supported types; every map iteration order", "why_tests_cant": "unbounded tiles and all iteration orders", "anchors": ["encoding/mvt/tile.go: VTile", "encoding/mvt/layer.go: VTileLayer", "encoding/mvt/feature.go: VTileFeature", "encoding/mvt/decode.go: DecodeByte, decodeLayer, decodeFeature"]}
{"id": "C64", "title": "Decoding a tile never crashes on absent optional fields", "statement": "Decoding any well-formed tile message returns a tile or an error, also when optional fields (layer extent, feature type, feature id) are absent.", "quantifier": "every tile message", "why_tests_cant": "every combination of present and absent fields", "anchors": ["encoding/mvt/decode.go: DecodeByte, decodeLayer, decodeFeature"]}
{"id": "C65", "title": "R-tree search limits and filters", "statement": "SearchIntersectWithLimit(k, bb) returns the first k results of SearchIntersect(bb) (all for negative k); an object is left out exactly when a filter refuses it, given the results so far; a filter that aborts ends the search with the results so far.", "quantifier": "every insertion history, query rectangle, limit and filter", "why_tests_cant": "unbounded trees; the abort has to cross every level", "anchors": ["internal/rtreego/rtree.go: SearchIntersectWithLimit, searchIntersect", "internal/rtreego/filter.go"]}
{"id": "C66", "title": "Inserting into a bulk loaded R-tree keeps the objects", "statement": "Insert on a tree made by NewTree from more than MaxChildren objects keeps every object and adds exactly the new one.", "quantifier": "every object list and every inserted object", "why_tests_cant": "depends on which slices share memory", "anchors": ["internal/rtreego/rtree.go: omt, walkPartitions, insert"]}
{"id": "C67", "title": "R-tree k nearest neighbours", "statement": "NearestNeighbors(k, p) returns the k objects nearest to p (all if there are fewer), nearest first.", "quantifier": "every insertion history, every point and every k", "why_tests_cant": "unbounded trees, pruning at every level, rounding of distances", "anchors": ["internal/rtreego/rtree.go: NearestNeighbors, nearestNeighbors, insertNearest, pruneEntriesMinDist", "internal/rtreego/geom.go: minDist"]}
{"id": "C68", "title": "R-tree nearest neighbour", "statement": "NearestNeighbor(p) returns an object of the tree with the smallest distance to p.", "quantifier": "every tree and point", "why_tests_cant": "pruning bounds computed with rounding", "anchors": ["internal/rtreego/rtree.go: NearestNeighbor, nearestNeighbor, pruneEntries", "internal/rtreego/geom.go: minMaxDist"]}
{"id": "C69", "title": "R-tree deletion", "statement": "After any history of Inserts and Deletes the tree holds exactly the inserted objects that were not deleted, Delete reports whether it found the object, search stays exact, and the tree stays balanced with MinChildren to MaxChildren entries in every node but the root.", "quantifier": "every history of insertions and deletions", "why_tests_cant": "unbounded histories; condensing and reinsertion at every level", "anchors": ["internal/rtreego/rtree.go: Delete, DeleteWithComparator, findLeaf, condenseTree"]}
{"id": "C70", "title": "Columns of longitudes", "statement": "On the longitude/latitude grid FromNative maps every longitude to the column whose sides enclose it: a column of the grid (0 <= x < 2^z), increasing with the longitude; ToNative gives the exact left side of a column and maps back to it.", "quantifier": "every finite longitude, zoom up to MaxZoom and tile size", "why_tests_cant": "2^64 longitudes; the code adds a variance before truncating", "anchors": ["slippy/maths.go: lon2Num, lon2Px, x2deg", "slippy/tile_grid.go: Grid4326"]}
{"id": "C71", "title": "NewTileMinMaxer contains the extent", "statement": "NewTileMinMaxer(grid, ext) returns a tile whose extent contains ext.", "quantifier": "every grid and extent", "why_tests_cant": "all extents", "anchors": ["slippy/tile_grid.go: NewTileMinMaxer"]}
{"id": "C72", "title": "Pixel ratio", "statement": "PixelRatioForZoom on the longitude/latitude grid is the width of a tile in degrees over the tile dimension in pixels, correctly rounded, with the zoom clamped to MaxZoom and 4096 pixels by default.", "quantifier": "every zoom and tile dimension up to 2^53", "why_tests_cant": "all dimensions", "anchors": ["slippy/tile.go: PixelRatioForZoom, MvtPixelRationForZoom"]}
{"id": "C73", "title": "WKT decoder is total", "statement": "Every byte string is either decoded or refused with an error: the decoder never crashes and never runs forever. A decoded geometry has enough points in each part (two in a line, three in a ring) and finite coordinates, and bytes after it are ignored.", "quantifier": "every byte string", "why_tests_cant": "infinitely many inputs", "anchors": ["encoding/wkt/wkt_decode.go: Decoder.Decode"]}
{"id": "C74", "title": "Decoded WKT can be encoded again", "statement": "A geometry obtained from the WKT decoder is accepted by the WKT encoder.", "quantifier": "every text the decoder accepts", "why_tests_cant": "infinitely many inputs; relates two independent checks of the number of points", "anchors": ["encoding/wkt/wkt_encode.go: encodePoints", "encoding/wkt/wkt_decode.go: readLineString"]}
{"id": "C75", "title": "GeoJSON decoding never panics", "statement": "Unmarshal returns a value or an error for every JSON value, however deeply nested, and never panics.", "quantifier": "every JSON value", "why_tests_cant": "inputs unbounded; the failing inputs have null in places the tests never put it", "anchors": ["encoding/geojson/geojson.go: Unmarshal, Geometry.UnmarshalJSON, decodeField"]}
{"id": "C76", "title": "GeoJSON features without geometry", "statement": "A feature whose geometry is null, which the documentation allows, can be written and read.", "quantifier": "every feature with a nil geometry", "why_tests_cant": "any id and properties", "anchors": ["encoding/geojson/geojson.go: Feature, Geometry.MarshalJSON, Geometry.UnmarshalJSON"]}
{"id": "C77", "title": "Walking around a vertex", "statement": "WalkAllONext and WalkAllOPrev call the callback with every edge around the origin exactly once, in (reverse) counter-clockwise order, until it returns false; FindONextDest finds an edge around the origin with the given destination exactly if there is one.", "quantifier": "every structure reachable by the edge operations, every starting edge and callback", "why_tests_cant": "rings of unbounded length; termination", "anchors": ["planar/triangulate/delaunay/quadedge/edge.go: WalkAllONext, WalkAllOPrev, FindONextDest"]}
{"id": "C78", "title": "AreLinesColinear recognises overlapping lines", "statement": "AreLinesColinear reports true exactly if the two segments lie on one line and have a point in common, in either order of the arguments.", "quantifier": "every pair of segments", "why_tests_cant": "The claim ranges over all pairs of float64 segments", "anchors": ["planar/line_intersect.go: AreLinesColinear", "planar/intersect/ring.go: ContainsPoint"]}
{"id": "C79", "title": "Shared end points are found and points are near, for coordinates of any size", "statement": "Two non-parallel segments with a common end point are always reported by SegmentIntersect, and a reported point lies in the bounding boxes of both segments, however large the coordinates are.", "quantifier": "every pair of segments with finite coordinates", "why_tests_cant": "Rounding errors depend on all bits of the coordinates", "anchors": ["planar/line_intersect.go: SegmentIntersect"]}
{"id": "C80", "title": "Clipping loses nothing in the box", "statement": "Every point of a line in the box is on a piece of the result, and every piece has at least two points.", "quantifier": "every line and box", "why_tests_cant": "corner cases of position", "anchors": ["planar/clip/linestring.go: lineString, uniqueSegmentIntersectPoints"]}
{"id": "C81", "title": "Circles approximated by the default number of segments", "statement": "For k below 3, Circle.AsPoints and AsSegments use the default of 30 points, and AsSegments is the closed chain through AsPoints.", "quantifier": "every circle and every k < 3", "why_tests_cant": "boundary values of k", "anchors": ["circle.go: AsPoints, AsSegments"]}
{"id": "C82", "title": "Area, centre and third vertex of a triangle", "statement": "Triangle.Area is twice the signed area exactly, Center is the mean of the vertices rounded once, colinearity is decided exactly for vertices on a grid, and ThirdPoint returns the vertex that is not among the two given ones.", "quantifier": "every triangle on a grid of spacing 2^e with sides up to 2^25 steps (ThirdPoint: all words)", "why_tests_cant": "sign and rounding for every position", "anchors": ["triangle.go: Area, Center, ThirdPoint", "circle.go: IsColinear"]}
{"id": "C83", "title": "The enclosing triangle encloses", "statement": "NewTriangleContaining returns a triangle of positive area with every given point strictly inside; it panics only for no points.", "quantifier": "every non-empty list of finite points with coordinates up to 2^40 in absolute value, not only on a grid", "why_tests_cant": "Delaunay triangulation starts from it; a point on its border breaks the subdivision, and rounding decides", "anchors": ["triangle.go: NewTriangleContaining, NewTriangleForExtent, NewTriangleContainingPoints"]}
{"id": "C84", "title": "CircleFromPoints returns", "statement": "CircleFromPoints ends for all finite points whose differences in y do not overflow, after at most two rotations.", "quantifier": "every three finite points with finite differences in y", "why_tests_cant": "a loop without a counter", "anchors": ["circle.go: CircleFromPoints"]}
{"id": "C85", "title": "The circle through three points", "statement": "Circle.ContainsPoint is true of the three points CircleFromPoints made the circle of, and colinear points, only those, give an error.", "quantifier": "every three finite points", "why_tests_cant": "rounding for every position", "anchors": ["circle.go: CircleFromPoints, IsColinear, ContainsPoint"]}
{"id": "C86", "title": "Points on horizontal, vertical and integer-slope segments", "statement": "Line.ContainsPoint is the test of the closed bounding box. On horizontal and vertical segments it and IsPointOnLineSegment accept exactly the points of the segment; on segments of integer slope IsPointOnLineSegment accepts every point of the segment; it never accepts a point outside the bounding box.", "quantifier": "all words for the box; every finite segment and point; every positive tolerance", "why_tests_cant": "continuum; order of the end points, -0, infinities", "anchors": ["line.go: ContainsPoint", "planar/planar.go: IsPointOnLineSegment, IsPointOnLine, Slope"]}
{"id": "C87", "title": "Unique lines", "statement": "NormalizeUniqueLines returns each segment of its argument once, directed from the smaller to the larger end point, in lexicographic order, whatever repetitions and directions the argument had.", "quantifier": "every list of lines without NaN whose different end points the comparator tells apart; every sorting routine", "why_tests_cant": "unbounded lists; the result is built in the array that is read", "anchors": ["planar/line_helpers.go: NormalizeLines, LinesByXY, NormalizeUniqueLines"]}
{"id": "C88", "title": "Distances", "statement": "PointDistance is the Euclidean distance rounded once, PointDistance2 its exact square; DistanceToLineSegment is the distance from the closest point of the segment.", "quantifier": "every pair of points on a grid, differences up to 2^26 steps; every point and segment", "why_tests_cant": "continuum; three cases of the closest point", "anchors": ["planar/distance.go: PointDistance, PointDistance2, DistanceToLineSegment"]}
{"id": "C89", "title": "Points on arbitrary segments", "statement": "Line.ContainsPoint and IsPointOnLineSegment accept the points of a segment, its end points in particular, and reject points not on the line.", "quantifier": "every finite segment and point", "why_tests_cant": "continuum", "anchors": ["line.go: ContainsPoint", "planar/planar.go: IsPointOnLineSegment"]}
{"id": "C90", "title": "Unique lines, any tolerance", "statement": "NormalizeUniqueLines returns no line twice, also if some end points are within the tolerance of each other.", "quantifier": "every list of lines", "why_tests_cant": "the order is not transitive within the tolerance", "anchors": ["planar/line_helpers.go: NormalizeUniqueLines, LinesByXY"]}
{"id": "C91", "title": "The enclosing triangle of far points", "statement": "NewTriangleContaining returns a triangle with an area for every finite point.", "quantifier": "every finite point", "why_tests_cant": "absorption of the margin by rounding", "anchors": ["triangle.go: NewTriangleContaining"]}
{"id": "C92", "title": "CircleFromPoints returns for all finite points", "statement": "CircleFromPoints ends for all finite points.", "quantifier": "every three finite points", "why_tests_cant": "overflow inside a loop without a counter", "anchors": ["circle.go: CircleFromPoints"]}
{"id": "C93", "title": "FindIntersects calls back each pair once, and stops when told", "statement": "For segments without NaN, FindIntersects calls the callback, for each pair of different segments whose x ranges overlap and for which SegmentIntersect reports a point (and, with connected set, which have no end points equal within the tolerance), exactly once, with the pair in one of its two orders and that point; it calls it for nothing else, and the sequence does not depend on the callback, which can only cut it short: on ErrStopIteration nil is returned, on another error that error.  A cancelled context also only cuts the sequence short and its error is returned.", "quantifier": "Every list of segments, comparator with positive tolerances, callback and context, and every sorting routine that sorts.", "why_tests_cant": "Ties between event points (shared x, vertical and degenerate segments, 0 and -0) decide which pairs are looked at; tests use a few segments in general position.", "anchors": ["planar/intersect/xsweep.go:NewEventQueue", "planar/intersect/xsweep.go:FindIntersects", "planar/intersect/xsweep.go:Less"]}
{"id": "C94", "title": "FindIntersects finds exactly the crossings", "statement": "For segments on a common grid, small enough for float64 to be exact, the pairs FindIntersects (not connected) reports are exactly the pairs of non-parallel segments which have a point in common.", "quantifier": "Every list of segments on such a grid, every sorting routine that sorts.", "why_tests_cant": "A sweep can miss a pair only for particular orders of event points; soundness and completeness range over all configurations.", "anchors": ["planar/intersect/xsweep.go:FindIntersects", "planar/line_intersect.go:SegmentIntersect"]}
{"id": "C95", "title": "With connected set only shared end points are skipped", "statement": "With connected set, FindIntersects leaves out only pairs of segments which share an end point.", "quantifier": "Every list of segments on a grid.", "why_tests_cant": "The end points are compared with a tolerance; whether that hides crossings depends on lengths tests do not use.", "anchors": ["planar/intersect/xsweep.go:FindIntersects"]}
{"id": "C96", "title": "Segment search returns the segments near the query, ascending, and never misses one that touches it", "statement": "For two or more segments with finite coordinates up to 2^30 in absolute value, SearchIntersectIdxs returns, in ascending order and without repetition, indices of segments only: it contains every segment which has a point in common with the query, and every segment in it has a bounding box within 0.00002 of that of the query. Building a rectangle for a segment never panics, for any float64 coordinates.", "quantifier": "All lists of at least two segments and all queries with finite coordinates up to 2^30; for the panic, all float64 words including NaN and infinities.", "why_tests_cant": "The box of a segment is enlarged by 0.00001 in floating point and then looked up in a bulk-loaded R-tree; whether a touching segment can be lost to rounding is a statement about all coordinates.", "anchors": ["planar/intersect/segments.go: SearchIntersectIdxs, NewSearchSegmentIdxs, rectForSegment, minAndDelta", "internal/rtreego/rtree.go: NewTree, SearchIntersect"]}
{"id": "C97", "title": "Ring.ContainsPoint is the even-odd rule on integer coordinates", "statement": "For a ring through any points with integer coordinates up to 512 in absolute value (self-intersecting, degenerate or repeated points allowed; with or without the index that rings of more than 16 segments get), ContainsPoint of such a point returns IncludeBorder if the point lies on a side, and otherwise whether a ray from the point crosses the ring an odd number of times.", "quantifier": "All lists of points and all query points with integer coordinates of absolute value at most 512; both settings of IncludeBorder.", "why_tests_cant": "The code counts rounded intersection points, compares them with a tolerance, and treats end points and colinear sides specially; each rule can be wrong only in rare configurations.", "anchors": ["planar/intersect/ring.go: NewRing, NewRingFromPoints, Ring.ContainsPoint"]}
{"id": "C98", "title": "Ring.ContainsPoint divides the plane: constant on connected parts, false outside, changed by crossing a side", "statement": "On integer coordinates up to 512: two points joined by a path of straight pieces that does not touch the ring get the same answer; a point joined so to a point beyond all the points of the ring is not contained; and a segment which crosses one side in its interior and touches no other changes the answer.", "quantifier": "All rings and points with integer coordinates of absolute value at most 512, all polygonal paths with real vertices.", "why_tests_cant": "A discrete Jordan-curve statement over all rings and paths.", "anchors": ["planar/intersect/ring.go: Ring.ContainsPoint"]}
{"id": "C99", "title": "Segment search misses no touching segment, for any number of segments and any coordinates", "statement": "SearchIntersectIdxs returns every segment which has a point in common with the query, for every list of segments and all finite coordinates.", "quantifier": "All lists of segments, including those with one segment, all finite coordinates.", "why_tests_cant": "Single-element indexes and coordinates above 2^37 are not what tests use.", "anchors": ["planar/intersect/segments.go: SearchIntersectIdxs, NewSearchSegmentIdxs, minAndDelta"]}
{"id": "C100", "title": "Ring.ContainsPoint is the even-odd rule for all finite coordinates", "statement": "For every ring and every point not on it, with finite coordinates, ContainsPoint answers by the even-odd rule, whatever the scale and the number of points of the ring.", "quantifier": "All rings and points with finite float64 coordinates.", "why_tests_cant": "The tolerance of the comparison is absolute near zero and relative elsewhere, so failures depend on the scale of the coordinates.", "anchors": ["planar/intersect/ring.go: Ring.ContainsPoint", "cmp/cmp.go: PointEqual"]}
{"id": "C101", "title": "Ring.Extent is the smallest box around the points of the ring", "statement": "Extent of a ring returns the smallest extent which contains all of its points.", "quantifier": "All rings with float64 coordinates other than NaN.", "why_tests_cant": "A test ring that contains or touches the origin shows nothing.", "anchors": ["planar/intersect/ring.go: NewRing, Ring.Extent"]}
{"id": "C102", "title": "Exactly the zones of the grid", "statement": "Every position of the UTM domain, including 84 N and longitudes next to 180 E and next to the sides of zones, gets the zone of the grid it lies in, and Zone.IsValid accepts exactly the zones that exist.", "quantifier": "every float64 longitude in [-180,180) and latitude in [-80,84]", "why_tests_cant": "the exceptional positions are single floats", "anchors": ["planar/coord/utm/utm.go: NewZone, ZoneNumberFromLngLat, Zone.IsValid"]}
{"id": "C103", "title": "Central meridians", "statement": "CentralMeridian of a zone that IsValid accepts is the middle of its six degrees, 6n-183; for any other zone it is an error, and it never panics.", "quantifier": "every zone number and letter byte", "why_tests_cant": "a table lookup with computed indexes", "anchors": ["planar/coord/utm/utm.go: CentralMeridian"]}
{"id": "C104", "title": "FromLngLat with military grid letters does not panic", "statement": "FromLngLat with the NATO flag returns a coordinate with letters for every position of the UTM domain.", "quantifier": "every float64 longitude and latitude of the domain", "why_tests_cant": "table indexes computed in floating point; panics only on thin strips", "anchors": ["planar/coord/utm/utm.go: FromLngLat, newDigraph"]}
{"id": "C105", "title": "The letters name a square", "statement": "Two positions of a zone with the same pair of letters and the same latitude are less than 100 km apart.", "quantifier": "every pair of positions", "why_tests_cant": "depends on entries of a table reached at few longitudes", "anchors": ["planar/coord/utm/utm.go: newDigraph, lngDigraphZones"]}
{"id": "C106", "title": "Longitudes are brought into range", "statement": "NormalizeLng of a longitude from -180 to 2^20 takes off a whole number of turns, exactly, leaves the latitude alone and gives a value below 180 and at least -180-2^-30; longitudes up to 2^-44 before 180 keep their value.", "quantifier": "every float64 longitude in [-180, 2^20]", "why_tests_cant": "rounding of the number of turns", "anchors": ["planar/coord/coord.go: LngLat.NormalizeLng"]}
{"id": "C107", "title": "All longitudes are brought into range", "statement": "NormalizeLng gives a longitude in [-180, 180) for every input.", "quantifier": "every float64 longitude", "why_tests_cant": "unbounded input", "anchors": ["planar/coord/coord.go: LngLat.NormalizeLng"]}
{"id": "C108", "title": "Degrees, minutes, seconds", "statement": "LatAsDMS and LngAsDMS give whole degrees, minutes from 0 to 59 and seconds in [0, 60) that stand for the absolute value up to 2^-52 degrees, and the hemisphere of the sign.", "quantifier": "every float64 below 2^63 in absolute value", "why_tests_cant": "carries between minutes and seconds happen at single floats", "anchors": ["planar/coord/coord.go: LngLat.LatAsDMS, LngAsDMS, toDMS"]}
{"id": "C109", "title": "A walked ring becomes rings", "statement": "For a ring without equal neighbours PolygonForRing ends, without a panic and whenever the context is cancelled; the rings it returns have at least three vertices, the leftmost first, and use each vertex of the ring at most as often as the ring does. For integer coordinates up to 4096 their signed areas add up to the area of the ring. A ring that visits no vertex twice comes back whole.", "quantifier": "every ring of float64 points, every context", "why_tests_cant": "rings that touch themselves in any number of places", "anchors": ["planar/makevalid/walker/walker.go: PolygonForRing"]}
{"id": "C110", "title": "No ring is lost in cutting", "statement": "PolygonForRing accepts closed rings, returns rings for every ring with an area, and leaves no vertex twice in a ring.", "quantifier": "every ring", "why_tests_cant": "depends on where the repeated vertices are", "anchors": ["planar/makevalid/walker/walker.go: PolygonForRing"]}
{"id": "C111", "title": "The walk around triangles", "statement": "From a triangle not seen before, RingForTriangle ends for every list of triangles and every context, without a panic; it marks that triangle and others not seen before, each once, and its ring has two vertices more than triangles were visited. If each triangle has three different vertices no two neighbours of the ring are equal. In a triangulation the ring's area is the sum of those of the visited triangles, all are connected to the first over common sides, and, unless cancelled, no neighbour of a visited triangle is left unseen.", "quantifier": "every list of triangles, first triangle, set of seen triangles and context", "why_tests_cant": "unbounded triangulations with holes, any order of the triangles", "anchors": ["planar/makevalid/walker/walker.go: RingForTriangle, EdgeMap, edgeMapFromTriangles"]}
{"id": "C112", "title": "Every triangle ends up in one polygon", "statement": "For triangles with three different vertices MultiPolygon never panics and uses only their vertices. In a triangulation every triangle is used exactly once, and each component (connected over common sides) becomes at most one polygon: the rectification of rings whose signed areas add up to the area of the component (integer coordinates up to 4096).", "quantifier": "every list of triangles with finite coordinates, every context, both orientations of the y axis", "why_tests_cant": "unbounded triangulations", "anchors": ["planar/makevalid/walker/walker.go: MultiPolygon, PolygonForTriangle"]}
{"id": "C113", "title": "MultiPolygon accepts any triangles", "statement": "MultiPolygon covers the area of its triangles and does not panic, whatever the triangles.", "quantifier": "every list of triangles", "why_tests_cant": "degenerate and repeated triangles", "anchors": ["planar/makevalid/walker/walker.go: MultiPolygon"]}
{"id": "C114", "title": "A point of the polygons is labelled inside", "statement": "A point which lies in one of the polygons (in or on its outer ring and not strictly in one of its own holes) is labelled Inside, wherever the polygons are and whether or not a clip box is given; LabelFor does not panic; Extent is the box of the polygons.", "quantifier": "every list of polygons and every point", "why_tests_cant": "rings and coordinates are unbounded", "anchors": ["planar/makevalid/hitmap/polygon_hitmap.go: NewFromPolygons, PolygonHM.LabelFor, PolygonHM.Extent"]}
{"id": "C115", "title": "Every segment once", "statement": "The segments makevalid.Destructure returns are all different, and none runs along another.", "quantifier": "every multipolygon", "why_tests_cant": "depends on which edges coincide", "anchors": ["planar/makevalid/makevalid.go: Destructure, unique"]}
{"id": "C116", "title": "Makevalid keeps the triangles in the polygons", "statement": "For a multipolygon, and for a polygon as a multipolygon of one, Makevalid triangulates the segments of Destructure, keeps exactly the triangles whose centre the polygons cover (C54), in their order, and returns a polygon, or none, for each component of these (C112). Points and lines come back unchanged, or as the Clipper returns them; collections and unknown geometries are an error.", "quantifier": "every multipolygon with integer coordinates up to 512, every triangulation of the segments into equally turned triangles with such coordinates and centres; every context, Clipper and clip box for points and lines", "why_tests_cant": "unbounded triangulations and polygons", "anchors": ["planar/makevalid/makevalid.go: Makevalid.Makevalid, makevalidPolygon", "planar/makevalid/triangulate.go: InsideTrianglesForSegments, InsideTrianglesForMultiPolygon"]}
{"id": "C117", "title": "Makevalid returns a geometry or an error", "statement": "Makevalid returns an error if its context is cancelled, and otherwise a geometry that is not nil.", "quantifier": "every geometry and context", "why_tests_cant": "cancellation at any moment", "anchors": ["planar/makevalid/makevalid.go: Makevalid.Makevalid, Destructure"]}
{"id": "C118", "title": "PrepareGeo gives the pixel of a point", "statement": "For a tile of positive size, mvt.PrepareGeo maps a point to the pixel (x - minX) / width * pixels, (maxY - y) / height * pixels up to a relative error of 2^-50; the corners of the tile are mapped to (0, 0) and (pixels, pixels) exactly, points of the tile stay in that square, their order is kept in both directions, and on integer tiles whose side is a power of two the result is exact.", "quantifier": "every tile, pixel extent and point within the stated ranges", "why_tests_cant": "rounding can take a point out of the tile or swap two points only for particular values", "anchors": ["encoding/mvt/prepare.go: PrepareGeo, preparept"]}
{"id": "C119", "title": "PrepareGeo keeps a line, without repeated points", "statement": "PrepareGeo maps a line to the pixels of its points in order, leaving out those equal (within the tolerance) to the last one kept; it is empty exactly if the line has fewer than two points or all its pixels coincide; a MultiLineString gives those of its lines that are not empty. On integer tiles, preparing, encoding and decoding a line gives the line in pixels.", "quantifier": "every line, tile and pixel extent; for the round trip every line in pixel range of an integer tile", "why_tests_cant": "which points fall together depends on tile, extent and all earlier points", "anchors": ["encoding/mvt/prepare.go: PrepareGeo, preparelinestr", "encoding/mvt/feature.go: encodeGeometry", "encoding/mvt/decode.go: DecodeGeometry"]}
{"id": "C120", "title": "PrepareGeo keeps the rings of a polygon", "statement": "When PrepareGeo returns for a polygon, the result has the rings of at least two points, as pixels without repeated points and without closing point, in order, each as it was or reversed; rings without area are dropped and nothing is left if the first has none. It panics exactly if a ring of two points or more has all its pixels at one place. On integer tiles, preparing, encoding and decoding a polygon gives the polygon in pixels with the windings the tile format asks for.", "quantifier": "every polygon and multi-polygon, tile and pixel extent; for the round trip every polygon in pixel range of an integer tile", "why_tests_cant": "combinations of thinning, closing points, colinear rings and reversals", "anchors": ["encoding/mvt/prepare.go: PrepareGeo, preparePolygon", "winding/winding.go: Order.RectifyPolygon"]}
{"id": "C121", "title": "PrepareGeo handles every geometry of a tile", "statement": "PrepareGeo returns a geometry that can be encoded for every geometry and tile: parts that become too small to see are dropped.", "quantifier": "every geometry and tile", "why_tests_cant": "small parts collapse only for particular tiles and zoom levels", "anchors": ["encoding/mvt/prepare.go: PrepareGeo, preparePolygon, preparelinestr"]}
{"id": "C122", "title": "Triangulate returns a triangulation of the polygon", "statement": "If pseudopolygon.Triangulate returns lines for distinct points, they are all the sides of the polygon through the points in order and chords of it, no two of which cross in the order of the points, and every further chord would cross one of them.", "quantifier": "every list of three or more distinct finite points, both orders of winding, every successful result", "why_tests_cant": "the recursion depends on which point is nearest and on circles; tests try a few polygons", "anchors": ["planar/triangulate/delaunay/subdivision/pseudopolygon/pseudo_polygon.go: Triangulate, triangulateSubRings", "planar/triangulate/delaunay/subdivision/pseudopolygon/edgemap.go"]}
{"id": "C123", "title": "Triangulate ends, without a panic, with lines between the given points", "statement": "The recursion ends for every list of finite points, repeated ones included, and every line joins two of the points. On integer points up to 2^16 it returns lines or one of the two documented errors: it does not panic and does not hang.", "quantifier": "every list of finite points; every list of up to 2^18 integer points with coordinates up to 2^16", "why_tests_cant": "repeated points lead through a recursion for rings within the ring", "anchors": ["planar/triangulate/delaunay/subdivision/pseudopolygon/pseudo_polygon.go: Triangulate, triangulateSubRings"]}
{"id": "C124", "title": "Convex polygons are always triangulated", "statement": "For every strictly convex polygon, wound either way, Triangulate returns lines, and no two of them cross.", "quantifier": "every strictly convex polygon of up to 2^18 integer points with coordinates up to 2^16", "why_tests_cant": "which diagonals are taken depends on distances and circles", "anchors": ["planar/triangulate/delaunay/subdivision/pseudopolygon/pseudo_polygon.go: Triangulate"]}
{"id": "C125", "title": "Every simple polygon is triangulated within itself, as Delaunay requires", "statement": "Triangulate accepts every simple polygon, closed or not; its lines do not cross the sides, no side is missing, and no point is inside the circle of a triangle.", "quantifier": "every simple polygon", "why_tests_cant": "needs polygons of particular shapes", "anchors": ["planar/triangulate/delaunay/subdivision/pseudopolygon/pseudo_polygon.go: Triangulate, triangulateSubRings"]}
{"id": "C126", "title": "Walking over the edges of a subdivision visits each one once", "statement": "WalkAllEdges calls the callback with every edge connected to the starting edge, once, in one of its two directions; it stops at the first error, returns it, and returns nothing for ErrCancelled.", "quantifier": "every quad-edge structure built with New, EndPoints, Splice, Connect, Swap and Delete, every starting edge and callback", "why_tests_cant": "the order depends on the shape of the graph; graphs are of any size", "anchors": ["planar/triangulate/delaunay/subdivision/subdivision.go: WalkAllEdges"]}
{"id": "C127", "title": "The vertex index finds an edge out of every vertex", "statement": "NewVertexIndex has for every vertex of the connected graph an edge that leaves it, and no other points; Remove before Delete keeps that so for the edges that are left, and drops a vertex with its last edge.", "quantifier": "every structure whose vertices have different rounded points, every edge removed", "why_tests_cant": "which edge is stored depends on the walk; removal depends on the ring of the vertex", "anchors": ["planar/triangulate/delaunay/subdivision/subdivision.go: NewVertexIndex, Add, Get, Remove"]}
{"id": "C128", "title": "The triangles of a triangulation are its faces", "statement": "When all faces have three sides WalkAllTriangles reports the corners of each face exactly once until told to stop, and Triangles returns all of them, or those which have no corner at the frame.", "quantifier": "every connected structure of triangles without loops, every callback and frame", "why_tests_cant": "the walk goes from vertex to vertex with a stack; graphs are of any size", "anchors": ["planar/triangulate/delaunay/subdivision/subdivision.go: WalkAllTriangles, Triangles, IsFramePoint"]}
{"id": "C129", "title": "Triangles returns only triangles of the plane, each once", "statement": "Triangles(true) does not return the outside, and faces with more than three sides do not disturb the result.", "quantifier": "every connected structure without loops", "why_tests_cant": "needs graphs of particular shapes", "anchors": ["planar/triangulate/delaunay/subdivision/subdivision.go: WalkAllTriangles, Triangles"]}
{"id": "C130", "title": "ResolveEdge finds the pair of edges between which a point lies", "statement": "For a point in none of the directions of the edges around a vertex ResolveEdge returns the first edge such that turning counter-clockwise (clockwise when y points down) from it to the next edge passes the point; if the edges go round in order there is exactly one, and it is returned whatever edge one starts with.", "quantifier": "every ring of edges with different directions, every point, both orders", "why_tests_cant": "the tables have 27 cases each; rings are of any size and start anywhere", "anchors": ["planar/triangulate/delaunay/quadedge/resolve_edge.go: ResolveEdge, resolveEdge, resolveEdgeYUp, resolveEdgeYDown"]}
{"id": "C131", "title": "ResolveEdge reports points in the direction of an edge", "statement": "For a point in the direction of an edge ResolveEdge returns that edge and the error for colinear points; for the origin it returns the error for an invalid end vertex.", "quantifier": "every ring of edges in order, every point, both orders", "why_tests_cant": "depends on where the search starts and on opposite edges", "anchors": ["planar/triangulate/delaunay/quadedge/resolve_edge.go: ResolveEdge"]}
{"id": "C132", "title": "The documented table of ResolveEdge holds without exception", "statement": "A point in the direction of an edge, at any distance, gives that edge; there is no colinear error for a point in no edge's direction; coincident edges are reported as such.", "quantifier": "every ring of edges and every point", "why_tests_cant": "needs particular configurations", "anchors": ["planar/triangulate/delaunay/quadedge/resolve_edge.go: ResolveEdge"]}
{"id": "C133", "title": "RightOf tells the side of an edge", "statement": "RightOf is true exactly if the turn from the edge to the point is clockwise as seen in the given axis order.", "quantifier": "every edge and point with integer coordinates up to 2^20", "why_tests_cant": "float64 signs have to be exact for all coordinates", "anchors": ["planar/triangulate/delaunay/quadedge/topo.go: RightOf"]}
{"id": "C134", "title": "InsertSite keeps a triangulation and adds exactly the point", "statement": "Inserting a point that is not yet a vertex either returns false and leaves the graph as it is, or returns true and the graph is a triangulation (every face has three edges, every edge two ends, equal points exactly at equal vertices) whose vertices are the old ones and the new point. All loops of InsertSite end. The starting edge stays in the graph unless the point lies on it.", "quantifier": "every triangulation with integer points, every integer point; for a point on an edge the corners of the two triangles beside it surround the point", "why_tests_cant": "the loop over suspect edges swaps an unknown number of edges; the pointer surgery must keep all rings consistent for every graph", "anchors": ["planar/triangulate/delaunay/subdivision/subdivision.go: InsertSite, locate, testEdge", "planar/triangulate/delaunay/quadedge/topo.go: Connect, Delete, Swap, Splice"]}
{"id": "C135", "title": "Every sequence of insertions yields a triangulation of the inserted points", "statement": "After New and any number of calls of InsertSite the vertices reachable from the starting edge are exactly the three frame points and the points for which InsertSite returned true, and all faces are triangles.", "quantifier": "every frame, every sequence of integer points not on the starting edge", "why_tests_cant": "sequences of any length", "anchors": ["planar/triangulate/delaunay/subdivision/subdivision.go: New, InsertSite"]}
{"id": "C136", "title": "New makes a triangle", "statement": "If New returns a subdivision for three different points, its graph is a triangulation with exactly these three vertices.", "quantifier": "all triples of different points, any float64 coordinates", "why_tests_cant": "the starting edge depends on the rounding of the centre", "anchors": ["planar/triangulate/delaunay/subdivision/subdivision.go: New"]}
{"id": "C137", "title": "locate finds the triangle which holds the point", "statement": "The walk always ends. If it succeeds, the point is an end of the edge or lies in the triangle on the left of the edge: not right of the edge, strictly left of the two other sides.", "quantifier": "every triangulation with integer points, every integer point, every limit", "why_tests_cant": "the walk depends on the whole graph", "anchors": ["planar/triangulate/delaunay/subdivision/subdivision.go: locate, testEdge"]}
{"id": "C138", "title": "InsertSite accepts every point of the frame and reports the truth", "statement": "InsertSite returns true for a point which is already a vertex; every point of the frame triangle can be inserted; after true the point can be reached from the starting edge.", "quantifier": "every subdivision, every point within the frame", "why_tests_cant": "needs the particular starting edge and points on the border", "anchors": ["planar/triangulate/delaunay/subdivision/subdivision.go: InsertSite, locate"]}
{"id": "C139", "title": "InsertSite keeps a Delaunay triangulation", "statement": "After InsertSite no vertex of the subdivision lies strictly inside the circle around one of its triangles.", "quantifier": "every frame, every sequence of insertions of points with integer coordinates", "why_tests_cant": "needs points which are almost on one circle; the comparison of distances has a tolerance of 1e-9", "anchors": ["planar/triangulate/delaunay/subdivision/subdivision.go: InsertSite", "circle.go: CircleFromPoints, ContainsPoint"]}
{"id": "C140", "title": "FindIntersectingEdges returns edges which cross the segment", "statement": "FindIntersectingEdges ends. What it returns without an error are edges of the subdivision, and SegmentIntersect reports that each of them meets the segment between the origins of its two arguments.", "quantifier": "every quad-edge graph built by the operations of the package with one point per vertex, every pair of edges", "why_tests_cant": "the walk over the crossed triangles is a property of every graph, also of ones which no longer are triangulations", "anchors": ["planar/triangulate/delaunay/subdivision/subdivision.go: FindIntersectingEdges", "planar/triangulate/delaunay/quadedge/edge.go: AsLine"]}
{"id": "C141", "title": "A constraint between two vertices can be inserted", "statement": "InsertConstraint between two vertices of a triangulation does not fail, however many edges the constraint crosses.", "quantifier": "every frame, every sequence of insertions, every pair of vertices", "why_tests_cant": "needs a constraint which crosses more than twenty edges", "anchors": ["planar/triangulate/delaunay/subdivision/subdivision_constrained.go: InsertConstraint", "planar/triangulate/delaunay/subdivision/subdivision.go: FindIntersectingEdges"]}
{"id": "C142", "title": "InsertConstraint keeps the graph and its index", "statement": "InsertConstraint and insertEdge end. Whatever they return, also with an error: the edges keep their end points, no point is added, all edges out of a vertex have one origin, and the vertex index holds edges which leave the point they are filed under. insertEdge without an error leaves an edge between the two points, or one point was seen in the direction of an edge out of the other.", "quantifier": "every quad-edge graph built by the operations of the package with one point per vertex, every index, every pair of points", "why_tests_cant": "the graph is changed by a sequence of deletions and insertions which depends on the triangulation of two polygons and can stop at each of them", "anchors": ["planar/triangulate/delaunay/subdivision/subdivision_constrained.go: InsertConstraint, insertEdge, PseudoPolygonPointCollector", "planar/triangulate/delaunay/subdivision/subdivision.go: VertexIndex"]}
{"id": "C143", "title": "No edge crosses a constraint after it was inserted", "statement": "After InsertConstraint has returned no error, no edge of the subdivision crosses the constraint.", "quantifier": "every frame, every sequence of insertions, every pair of vertices", "why_tests_cant": "needs vertices on the constraint", "anchors": ["planar/triangulate/delaunay/subdivision/subdivision_constrained.go: InsertConstraint, ResolveStartingEndingEdges"]}
{"id": "C144", "title": "Classify says where a point lies", "statement": "quadedge.Classify returns LEFT, RIGHT, BEHIND, BEYOND, ORIGIN, DESTINATION or BETWEEN exactly if the point lies there in relation to the segment.", "quantifier": "every three points with integer coordinates up to 2^20 in absolute value, the ends of the segment may be equal", "why_tests_cant": "all positions of three points; the lengths are compared as rounded square roots", "anchors": ["planar/triangulate/delaunay/quadedge/qtype.go: Classify", "point.go: Subtract, Multiply, CrossProduct, Magnitude"]}
{"id": "C145", "title": "NewForPoints leaves the points of its caller alone", "statement": "NewForPoints does not change the slice of points it is called with.", "quantifier": "every slice of points", "why_tests_cant": "tests use points with at most three decimals, which rounding keeps", "anchors": ["planar/triangulate/delaunay/subdivision/subdivision.go: NewForPoints", "planar/triangulate/delaunay/subdivision/subdivision_constrained.go: roundGeomPoint"]}
{"id": "C146", "title": "RoundToPrec rounds to the given number of decimals", "statement": "RoundToPrec(v, p) is finite, is the float64 nearest to a number with p decimals, is at most about half a unit of the last decimal away from v, is not the negative zero, and rounding it again does not change it.", "quantifier": "every finite v and every p from 0 to 15", "why_tests_cant": "the multiplication and the division round; all float64 values", "anchors": ["geom.go: RoundToPrec", "planar/triangulate/delaunay/subdivision/subdivision_constrained.go: roundGeomPoint"]}
{"id": "C147", "title": "Hull is the smaller region of the sphere between two points", "statement": "spherical.Hull returns an extent with the longitudes of the two points at its west and east sides, in the order in which the way to the east is at most 180 degrees, with the smaller latitude in the south and the larger one in the north, and it does not depend on the order of the points.", "quantifier": "every two points with longitudes from -180 to 180 degrees which are multiples of 2^-40 degrees, all latitudes but NaN", "why_tests_cant": "all pairs of longitudes, on both sides of the antimeridian", "anchors": ["spherical/extent.go: Hull, Extent"]}
{"id": "C148", "title": "ThreePointsAreColinear tells whether three points are on a line", "statement": "Order.ThreePointsAreColinear returns true exactly if the three points are on a line.", "quantifier": "every three points with integer coordinates up to 2^20, every tolerance of the default comparator up to 1/2; points of any size with the default tolerance", "why_tests_cant": "all triples of points; the area is compared with a fixed tolerance", "anchors": ["winding/winding.go: ThreePointsAreColinear", "cmp/default_compare.go: Float"]}
{"id": "C149", "title": "AsGeom returns the corners of the triangle", "statement": "Triangle.AsGeom returns the three corners of the face to the right of the edge of the Triangle, counter-clockwise, beginning with the origin of the edge.", "quantifier": "every quad-edge graph built by the operations of the package with one point per vertex, every edge with a three-sided face on its right", "why_tests_cant": "the faces of every graph which the operations can build", "anchors": ["planar/triangulate/delaunay/subdivision/geom.go: AsGeom", "planar/triangulate/delaunay/quadedge/edge.go: RNext"]}
{"id": "C150", "title": "IntersectsPoint tells whether a point is in the triangle", "statement": "Triangle.IntersectsPoint returns true exactly if the point is in the triangle or on its boundary, and false for a nil edge.", "quantifier": "every quad-edge graph built by the operations of the package with one point per vertex, every edge with a three-sided face on its right, corners and points with integer coordinates up to 2^20", "why_tests_cant": "all positions of a point; the answer comes from the first side with a decision", "anchors": ["planar/triangulate/delaunay/subdivision/triangle.go: IntersectsPoint", "planar/triangulate/delaunay/quadedge/qtype.go: Classify"]}
{"id": "C151", "title": "SharedEdge returns the side which two triangles share", "statement": "Triangle.SharedEdge returns a side of the first triangle which is a side of the other one in the opposite direction, and nil exactly if there is none.", "quantifier": "every quad-edge graph built by the operations of the package with one point per vertex, every edge with a three-sided face on its right, every pair of such edges", "why_tests_cant": "the inner loop goes on where it ended before; all pairs of triangles", "anchors": ["planar/triangulate/delaunay/subdivision/triangle.go: SharedEdge"]}
{"id": "C152", "title": "OppositeVertex returns the vertex of the other triangle", "statement": "a.OppositeVertex(b) of two triangles which share a side is the corner of b which is not on that side.", "quantifier": "every pair of triangles of a triangulation which share a side", "why_tests_cant": "the method has no test", "anchors": ["planar/triangulate/delaunay/subdivision/triangle.go: OppositeVertex"]}
{"id": "C153", "title": "OppositeTriangle returns the triangle opposite to a corner", "statement": "Triangle.OppositeTriangle ends; for a corner of the triangle it returns the triangle on the other side of the side which does not touch the corner, and for every other point it returns an error.", "quantifier": "every quad-edge graph built by the operations of the package with one point per vertex, every edge with a three-sided face on its right with three different corners, every point", "why_tests_cant": "the loop ends only by coming back to the first edge", "anchors": ["planar/triangulate/delaunay/subdivision/triangle.go: OppositeTriangle"]}
{"id": "C154", "title": "Repeated points and constraints without length do not matter", "statement": "GeomConstrained.Triangles returns the same result without a point which equals an earlier one, and without a constraint from a point to itself. It triangulates the points and the ends of the other constraints, each once.", "quantifier": "all points (NaN included), all constraints, both values of EnableConstraints, every time of cancellation", "why_tests_cant": "the deduplication uses a map over all points and all constraints", "anchors": ["planar/triangulate/delaunay/constrained.go: GeomConstrained.Triangles"]}
{"id": "C155", "title": "A constraint is a side of the triangles", "statement": "Every constraint between two points is a side of a triangle which GeomConstrained.Triangles returns.", "quantifier": "every set of points, every constraint", "why_tests_cant": "the tests do not look for the constraints in the result", "anchors": ["planar/triangulate/delaunay/constrained.go: GeomConstrained.Triangles, EnableConstraints"]}
{"id": "C156", "title": "Constrained.Triangles leaves the memory of its caller alone", "statement": "Constrained.Triangles changes neither its Points nor the array behind them.", "quantifier": "every array, every slice of it, all constraints", "why_tests_cant": "tests do not look at arrays behind slices", "anchors": ["planar/triangulate/delaunay/constrained.go: Constrained.Triangles", "planar/triangulate/delaunay/subdivision/subdivision.go: NewForPoints"]}
{"id": "C157", "title": "Validate accepts a good vertex", "statement": "quadedge.Validate returns nil if the edges out of the vertex go round once, counter-clockwise, and an error if they go round clockwise. If it returns nil the edges have both ends, the same origin and different destinations.", "quantifier": "every state of the quad-edges, every edge, every number of edges out of the vertex, both directions of the y axis", "why_tests_cant": "the numbers of edges and their directions are not bounded", "anchors": ["planar/triangulate/delaunay/quadedge/edge.go: Validate"]}
{"id": "C158", "title": "Validate rejects a bad vertex", "statement": "quadedge.Validate returns an error if the edges out of the vertex are not in counter-clockwise order or one of them covers another.", "quantifier": "every state of the quad-edges, every edge", "why_tests_cant": "the tests try a few bad vertices, not all", "anchors": ["planar/triangulate/delaunay/quadedge/edge.go: Validate"]}
