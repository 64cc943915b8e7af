{"id": "C01", "title": "Disjoint sets: find decides connectivity", "statement": "After initSets(n) followed by any sequence of find/join/makeSet calls with valid ids, find(a) == find(b) holds exactly when a and b are linked by a chain of joined pairs; the value returned by find is itself an element of that class and finding it again returns it.", "quantifier": "all n, all finite sequences of find/join/makeSet calls on valid ids, all pairs of ids", "why_tests_cant": "connectivity depends on the whole history of joins, path compressions and rank decisions; tests sample a few histories", "anchors": ["common/include/rofl/common/disjoint_set.h", "common/src/disjoint_set.cpp", "DisjointSet::find", "DisjointSet::join", "DisjointSet::makeSet"]}
{"id": "C02", "title": "Disjoint sets: size and number of sets", "statement": "In every state reached from initSets(n) by find/join calls on valid ids, size(a) is the number of ids connected to a, and setNum() is the number of distinct sets.", "quantifier": "all n, all histories of find/join, all ids", "why_tests_cant": "counts are global quantities over every history", "anchors": ["common/include/rofl/common/disjoint_set.h", "common/src/disjoint_set.cpp", "DisjointSet::size", "DisjointSet::setNum"]}
{"id": "C03", "title": "Disjoint sets: setNum after makeSet", "statement": "setNum() is the number of distinct sets in every reachable state, including states reached through makeSet().", "quantifier": "all histories including makeSet", "why_tests_cant": "the bookkeeping of one operation must hold in every context", "anchors": ["common/include/rofl/common/disjoint_set.h", "common/src/disjoint_set.cpp", "DisjointSet::makeSet", "DisjointSet::setNum"]}
{"id": "C04", "title": "Disjoint sets: find is observably pure", "statement": "Calling find (which compresses paths) never changes the answer of any later find, size, setNum or parents query, although it rewrites internal links.", "quantifier": "all reachable states, all ids, all later queries", "why_tests_cant": "non-interference must hold for every internal tree shape", "anchors": ["common/include/rofl/common/disjoint_set.h", "common/src/disjoint_set.cpp", "DisjointSet::find"]}
{"id": "C05", "title": "Disjoint sets: memory safety and ids out of range", "statement": "find on an id that is out of range returns the number of elements; join and size never access storage outside the structure when their ids are in range, and join of two ids in one set returns the number of elements and changes no set.", "quantifier": "all reachable states, all ids", "why_tests_cant": "out-of-range accesses may go unnoticed in tests", "anchors": ["common/include/rofl/common/disjoint_set.h", "common/src/disjoint_set.cpp", "DisjointSet::find", "DisjointSet::join", "DisjointSet::size"]}
{"id": "C06", "title": "Disjoint sets: parents enumerates one representative per set", "statement": "parents(it) outputs every class representative exactly once, in increasing order, and the number of outputs equals the number of sets.", "quantifier": "all reachable states", "why_tests_cant": "enumeration must be exact for every partition", "anchors": ["common/include/rofl/common/disjoint_set.h", "common/src/disjoint_set.cpp", "DisjointSet::parents"]}
{"id": "C07", "title": "Disjoint sets: trees stay shallow", "statement": "Following parent links from any id reaches its representative in at most log2(size of its set) steps, hence find always terminates.", "quantifier": "all reachable states, all ids", "why_tests_cant": "a complexity/termination bound over all histories", "anchors": ["common/include/rofl/common/disjoint_set.h", "common/src/disjoint_set.cpp", "DisjointSet::find", "DisjointSet::join"]}
{"id": "C08", "title": "Label sets: set algebra", "statement": "insert/remove/insert(range)/union/intersection/difference/size/iteration behave as the mathematical set operations on labels; iteration is strictly increasing; insert(x) reports true exactly when x was already present.", "quantifier": "all label sets, all labels", "why_tests_cant": "algebraic laws over all sets", "anchors": ["common/include/rofl/common/label_set.h", "common/src/label_set.cpp", "LabelSet::insert", "LabelSet::unionSet", "LabelSet::intersectionSet", "LabelSet::differenceSet"]}
{"id": "C09", "title": "Label sets: equality operator", "statement": "ls1 == ls2 holds exactly when both contain the same labels, and the comparison never reads past the end of a set.", "quantifier": "all pairs of label sets", "why_tests_cant": "must hold for all pairs, including different sizes", "anchors": ["common/include/rofl/common/label_set.h", "common/src/label_set.cpp", "LabelSet::operator==", "LabelSet::operator!="]}
{"id": "C10", "title": "Min-max heap: contents are a multiset", "statement": "After any sequence of push/popTop/popBottom the heap holds exactly the pushed elements minus the popped ones (with multiplicity); popTop removes exactly the element top() showed, popBottom exactly the element bottom() showed.", "quantifier": "all comparators, all operation sequences", "why_tests_cant": "loss or duplication may occur only in particular shapes", "anchors": ["common/include/rofl/common/min_max_heap.h", "MinMaxHeap::push", "MinMaxHeap::popTop", "MinMaxHeap::popBottom"]}
{"id": "C11", "title": "Min-max heap: extremes after pushes", "statement": "After any sequence of pushes (duplicates allowed), no element precedes top() and bottom() precedes no element, for any strict weak order.", "quantifier": "all strict weak orders, all push sequences", "why_tests_cant": "invariant over all insertion orders and sizes", "anchors": ["common/include/rofl/common/min_max_heap.h", "MinMaxHeap::push", "MinMaxHeap::top", "MinMaxHeap::bottom"]}
{"id": "C12", "title": "Min-max heap: extremes under mixed operations, pairwise inequivalent elements", "statement": "After any interleaving of push/popTop/popBottom in which the elements stored at any one time are pairwise inequivalent, top() is the minimum and bottom() the maximum.", "quantifier": "all strict weak orders, all such operation sequences", "why_tests_cant": "invariant over all histories and heap shapes", "anchors": ["common/include/rofl/common/min_max_heap.h", "MinMaxHeap::popTop", "MinMaxHeap::popBottom"]}
{"id": "C13", "title": "Min-max heap: extremes under mixed operations, duplicates allowed", "statement": "After any interleaving of push/popTop/popBottom, duplicates allowed, top() is a minimum and bottom() a maximum.", "quantifier": "all strict weak orders, all operation sequences", "why_tests_cant": "failing shapes need several equal keys in special positions", "anchors": ["common/include/rofl/common/min_max_heap.h", "MinMaxHeap::popTop", "MinMaxHeap::bottom"]}
{"id": "C14", "title": "Min-max heap: next extremes", "statement": "nextTop() is the second element in order and nextBottom() the second from the end, for every heap with at least two elements.", "quantifier": "all well formed heaps", "why_tests_cant": "depends on the heap size class and shape", "anchors": ["common/include/rofl/common/min_max_heap.h", "MinMaxHeap::nextTop", "MinMaxHeap::nextBottom"]}
{"id": "C15", "title": "Min-max heap: no out-of-range access", "statement": "No heap operation reads or writes outside the stored elements; top/bottom/pop on an empty heap stop the program instead of reading.", "quantifier": "all heaps, all operations", "why_tests_cant": "memory safety over all shapes", "anchors": ["common/include/rofl/common/min_max_heap.h", "MinMaxHeap::heapDownMin", "MinMaxHeap::heapDownMax", "MinMaxHeap::heapUp"]}
{"id": "C16", "title": "Index intervals: linear position and multi-index are inverse bijections", "statement": "For every dimension and every box with positive extents, getPos maps the cells of the box one-to-one onto 0..size-1 and getIndices is its inverse, for the raster and the boustrophedon order; the compile-time and run-time raster indexers agree.", "quantifier": "all dimensions, boxes, cells and positions", "why_tests_cant": "bijection over unbounded dimension and extents", "anchors": ["common/include/rofl/common/interval_indices.h", "StaticRasterIndexer", "RasterIndexer", "BoustrophedonIndexer"]}
{"id": "C17", "title": "Index intervals: iteration visits each cell once", "statement": "Iterating from beginRaster()/beginBoustrophedon() to the end visits every cell of the interval exactly once and nothing else.", "quantifier": "all dimensions; all intervals with non-negative extents whose coordinates and cell count are int values", "why_tests_cant": "exhaustive over all intervals", "anchors": ["common/include/rofl/common/interval_indices.h", "IntervalIndices::beginRaster", "IntervalIndices::beginBoustrophedon"]}
{"id": "C18", "title": "Boustrophedon order: consecutive cells are neighbours (1 and 2 dimensions, and even middle extents)", "statement": "Two consecutive cells in boustrophedon order differ by one in exactly one coordinate whenever the dimension is at most two, or every extent other than the first and last is even.", "quantifier": "all such boxes, all consecutive positions", "why_tests_cant": "adjacency for all sizes", "anchors": ["common/include/rofl/common/interval_indices.h", "BoustrophedonIndexer::getIndices"]}
{"id": "C19", "title": "Boustrophedon order: consecutive cells are neighbours (all dimensions)", "statement": "Two consecutive cells in boustrophedon order differ by one in exactly one coordinate, for every dimension.", "quantifier": "all dimensions, boxes, positions", "why_tests_cant": "fails only in three or more dimensions with odd middle extents", "anchors": ["common/include/rofl/common/interval_indices.h", "BoustrophedonIndexer::getIndices"]}
{"id": "C20", "title": "Index intervals: intersection, translation and stacking", "statement": "A cell is in a.intersect(b) exactly when it is in a and in b; translate moves membership by the offset; stacked gives the slab adjacent to the interval along one axis: it contains every cell newly covered by the translation and none of the old ones, and is exactly the newly covered cells when the offset is at most the extent.", "quantifier": "all dimensions, intervals (including empty ones), cells", "why_tests_cant": "laws over all intervals", "anchors": ["common/include/rofl/common/interval_indices.h", "IntervalIndices::intersect", "IntervalIndices::translate", "IntervalIndices::stacked", "IntervalIndices::inside"]}
{"id": "C21", "title": "Index intervals: size and emptiness", "statement": "size() is the number of cells for which inside() is true, and empty() holds exactly when it is zero.", "quantifier": "all intervals whose extents are non-negative and whose cell count fits the size type", "why_tests_cant": "counting over unbounded boxes", "anchors": ["common/include/rofl/common/interval_indices.h", "IntervalIndices::size", "IntervalIndices::empty"]}
{"id": "C22", "title": "Grid: cells are independent storage", "statement": "Writing the cell at indices i and reading at indices j returns the written value when i == j and the previous value otherwise, for all cells in the domain; accesses inside the domain never leave the storage; fill sets every cell.", "quantifier": "all dimensions, domains, cells, values", "why_tests_cant": "aliasing freedom over all boxes", "anchors": ["common/include/rofl/common/grid.h", "Grid::value", "Grid::getPos", "Grid::fill"]}
{"id": "C23", "title": "Leading-zero count", "statement": "nlz8/16/32/64 return the number of leading zero bits of every argument (the width for zero).", "quantifier": "all 8, 16, 32 and 64 bit arguments", "why_tests_cant": "2^64 inputs", "anchors": ["common/include/rofl/common/bit_manip.h", "common/src/bit_manip.cpp", "nlz8", "nlz16", "nlz32", "nlz64"]}
{"id": "C24", "title": "Power-of-two rounding", "statement": "flp2 returns the largest power of two not above x (0 for 0); clp2 returns the smallest power of two not below x whenever that is representable, and 0 when it is not.", "quantifier": "all 8, 16, 32 and 64 bit arguments", "why_tests_cant": "2^64 inputs", "anchors": ["common/include/rofl/common/bit_manip.h", "common/src/bit_manip.cpp", "flp2u8", "flp2u64", "clp2u8", "clp2u64"]}
{"id": "C25", "title": "Float decomposition round trips", "statement": "Splitting a float/double into sign, exponent and mantissa and assembling it again restores the identical bit pattern for every input, and assembling in-range fields then splitting restores the fields.", "quantifier": "all bit patterns; all in-range field triples", "why_tests_cant": "2^64 bit patterns", "anchors": ["common/include/rofl/common/bit_manip.h", "common/src/bit_manip.cpp", "getMantissaExpSignF", "setMantissaExpSignF", "getMantissaExpSignD", "setMantissaExpSignD"]}
{"id": "C26", "title": "Integer traits: log2 of the modulus", "statement": "IntegerTraits<T>::log2Mod(i) is floor(log2|i|) for every non-zero i of every supported integer type.", "quantifier": "all integer types, all non-zero values", "why_tests_cant": "2^64 inputs per type", "anchors": ["common/include/rofl/common/numeric_traits.h", "IntegerTraits::log2Mod"]}
{"id": "C27", "title": "Integer traits: rounding to powers of two", "statement": "floorPow2(i)/ceilPow2(i) are the greatest signed power of two <= i / least signed power of two >= i for every i for which that value is representable.", "quantifier": "all integer types, all values", "why_tests_cant": "2^64 inputs per type", "anchors": ["common/include/rofl/common/numeric_traits.h", "IntegerTraits::floorPow2", "IntegerTraits::ceilPow2"]}
{"id": "C28", "title": "Morton comparison of integer points is a total order equal to Z-order", "statement": "mortonCmpInt is a strict total order on integer points and coincides with lexicographic comparison of the interleaved bits of the coordinates (signed types offset to start from zero), for every dimension and bit width.", "quantifier": "all dimensions, widths, signed and unsigned points", "why_tests_cant": "sorting correctness needs the order axioms for all triples", "anchors": ["common/include/rofl/common/morton_sort.h", "mortonCmpInt", "msb"]}
{"id": "C29", "title": "Morton distance of integer points", "statement": "mortonDistanceInt is symmetric, is the all-zero value exactly for equal points and its highest differing level obeys the ultrametric inequality.", "quantifier": "all dimensions, widths, points", "why_tests_cant": "metric laws over all triples", "anchors": ["common/include/rofl/common/morton_sort.h", "mortonDistanceInt"]}
{"id": "C30", "title": "Power-of-two interval of two integers", "statement": "intervalPow2Int(i1,i2) returns the smallest aligned power-of-two block that contains both arguments, split at its midpoint.", "quantifier": "all pairs of values of every integer type", "why_tests_cant": "all pairs", "anchors": ["common/include/rofl/common/morton_sort.h", "intervalPow2Int"]}
{"id": "C31", "title": "Morton split of integer points", "statement": "mortonSplitInt(v1,v2) returns mid points that separate the two points in Z-order along the coordinate of their highest differing bit, and keep both points in the same aligned block.", "quantifier": "all dimensions, all point pairs", "why_tests_cant": "all pairs", "anchors": ["common/include/rofl/common/morton_sort.h", "mortonSplitInt"]}
{"id": "C32", "title": "Morton comparison of floating point points is a strict weak order", "statement": "mortonCmpFloat can be used for sorting: irreflexive, asymmetric, transitive, with transitive incomparability, for all finite points.", "quantifier": "all finite float points, all dimensions", "why_tests_cant": "order axioms over all triples including signed zeros", "anchors": ["common/include/rofl/common/morton_sort.h", "mortonCmpFloat", "xorFloat"]}
{"id": "C33", "title": "Exclusive-or of floating point numbers", "statement": "xorFloat returns the value whose binary expansion is the bitwise exclusive-or of the two aligned expansions, for float and double, without undefined behaviour.", "quantifier": "all pairs of finite floats/doubles", "why_tests_cant": "2^128 pairs", "anchors": ["common/include/rofl/common/morton_sort.h", "xorFloat"]}
{"id": "C34", "title": "Morton tree: sort and lookup", "statement": "After sort() the items are a permutation of the inserted ones in Z-order; findItem(q) returns the position of the first item that does not precede q, whatever the earlier insertions.", "quantifier": "all item sequences, dimensions, queries", "why_tests_cant": "all sequences", "anchors": ["common/include/rofl/common/morton_tree.h", "MortonTree::sort", "MortonTree::findItem"]}
{"id": "C35", "title": "Morton tree: item ids", "statement": "With identifier reset, ids are the insertion numbers; without it, each stored item keeps the id the caller gave it.", "quantifier": "all insertion sequences", "why_tests_cant": "all sequences", "anchors": ["common/include/rofl/common/morton_tree.h", "MortonTree::insert"]}
{"id": "C36", "title": "Morton tree: box search", "statement": "searchInBox reports every stored item lying in the query box.", "quantifier": "all item sets and boxes", "why_tests_cant": "all item sets", "anchors": ["common/include/rofl/common/morton_tree.h", "MortonTree::searchInBox"]}
{"id": "C37", "title": "Parameters: map laws", "statement": "A parameter set by name is the value read back afterwards, other names are unaffected, the last setting wins; reading a missing parameter yields the default, stores it and reports false; a value that cannot be converted leaves the caller's variable unchanged and reports true.", "quantifier": "all operation sequences, names, values", "why_tests_cant": "all histories", "anchors": ["common/include/rofl/common/param_map.h", "common/src/param_map.cpp", "ParamMap::setParamString", "ParamMap::getParam", "ParamMap::setParam"]}
{"id": "C38", "title": "Parameters: write then read restores the table", "statement": "Writing a parameter table to a stream and reading it into an empty table restores the same table whenever every name and value is a non-empty string without white space or NUL characters, no name starts with '#', and every line is shorter than the line limit.", "quantifier": "all such tables", "why_tests_cant": "all strings and table sizes", "anchors": ["common/include/rofl/common/param_map.h", "common/src/param_map.cpp", "ParamMap::write", "ParamMap::read"]}
{"id": "C39", "title": "Parameters: the round trip needs its side conditions", "statement": "Writing a parameter table and reading it back restores the table for arbitrary names and values.", "quantifier": "all tables", "why_tests_cant": "all strings", "anchors": ["common/include/rofl/common/param_map.h", "common/src/param_map.cpp", "ParamMap::write", "ParamMap::read"]}
{"id": "C40", "title": "Parameters: command line parsing", "statement": "Reading argv binds each option name (dash, letter, ...) to the argument that follows it when that one is not itself an option, later bindings win, other words are ignored, argv is never indexed out of range.", "quantifier": "all argument vectors", "why_tests_cant": "all argument vectors", "anchors": ["common/include/rofl/common/param_map.h", "common/src/param_map.cpp", "ParamMap::read(int,char**)", "ParamMap::isOption"]}
{"id": "C41", "title": "Parameters: tilde expansion", "statement": "adaptTildeInPaths replaces a leading '~' in every value by the home directory and touches nothing else, without undefined behaviour.", "quantifier": "all tables", "why_tests_cant": "all tables", "anchors": ["common/include/rofl/common/param_map.h", "common/src/param_map.cpp", "ParamMap::adaptTildeInPaths"]}
{"id": "C42", "title": "Parameters: container values", "statement": "Reading a container parameter fills the destination with the converted tokens of the stored text in order and the default for the missing ones; surplus tokens are ignored; from the first token that cannot be converted on, the default is used.", "quantifier": "all texts, NUL-free delimiter sets, destination lengths", "why_tests_cant": "all texts", "anchors": ["common/include/rofl/common/param_map.h", "common/src/param_map.cpp", "ParamMap::getParamContainer", "ParamMap::fillWithTokens"]}
{"id": "C43", "title": "Profiler: count, minimum, maximum, total", "statement": "After any sequence of samples for a key, the statistics hold the number of samples, their minimum and maximum, and other keys are unaffected.", "quantifier": "all sample sequences and keys", "why_tests_cant": "all sequences", "anchors": ["common/include/rofl/common/profiler.h", "common/src/profiler.cpp", "Profiler::updateStat"]}
{"id": "C44", "title": "Profiler: mean and variance", "statement": "After any sequence of samples the reported average is their mean and the reported variance their sample variance.", "quantifier": "all sample sequences", "why_tests_cant": "all sequences", "anchors": ["common/include/rofl/common/profiler.h", "common/src/profiler.cpp", "Profiler::updateStat", "ProfilerStat::getVariance"]}
{"id": "C45", "title": "Fourier evaluation", "statement": "evaluateFourier(c, t) equals sum_i c[2i] cos(i t) + c[2i+1] sin(i t) in exact real arithmetic, and an odd number of coefficients is diagnosed.", "quantifier": "all coefficient vectors, all angles", "why_tests_cant": "all vectors and reals", "anchors": ["common/include/rofl/common/functions.h", "common/src/functions.cpp", "evaluateFourier"]}
{"id": "C46", "title": "Cosine bounds on an interval", "statement": "findLUCos(a,b) returns values that bound cos on [a,b] and are attained there (exact real arithmetic).", "quantifier": "all real intervals", "why_tests_cant": "uncountably many points", "anchors": ["common/include/rofl/common/functions.h", "common/src/functions.cpp", "findLUCos"]}
{"id": "C47", "title": "Fourier series bounds on an interval", "statement": "findLUFourier returns bounds valid for the series at every point of the interval (exact real arithmetic).", "quantifier": "all coefficient vectors, all intervals", "why_tests_cant": "uncountably many points", "anchors": ["common/include/rofl/common/functions.h", "common/src/functions.cpp", "findLUFourier"]}
{"id": "C48", "title": "Angle normalisation", "statement": "normalize360/normalizeAngle2Pi return an angle in [0, period) that differs from the input by a whole number of periods.", "quantifier": "all real angles", "why_tests_cant": "all reals", "anchors": ["common/include/rofl/common/functions.h", "common/src/functions.cpp", "normalize360", "normalize180", "geometry/src/base_geometry2.cpp"]}
{"id": "C49", "title": "PNEBI recurrence", "statement": "The vector computed by evaluatePnebiVector satisfies the three-term recurrence y[k-1] = y[k+1] + (2k/x) y[k] for 1 <= k < n, starts with the polynomial value for order 0, and is the unit vector scaled by two at x near 0.", "quantifier": "all orders n >= 0 whose starting index 2 (n + sqrt(40 n)) fits an int, all arguments, all previous contents of the vector", "why_tests_cant": "rescaling may strike at any step for any argument", "anchors": ["common/include/rofl/common/functions.h", "common/src/functions.cpp", "evaluatePnebiVector"]}
{"id": "C50", "title": "PNEBI table lookup", "statement": "For an argument in the table range the lookup returns the linear interpolation between the two adjacent nodes (hence the node value at a node, and a value between the neighbouring node values), and the single-order and all-order lookups agree.", "quantifier": "all tables, orders, arguments", "why_tests_cant": "all tables", "anchors": ["common/include/rofl/common/functions.h", "common/src/functions.cpp", "PnebiLUT::eval"]}
{"id": "C51", "title": "Truncated least squares: running sums are exact", "statement": "At every step of the sweep the running quantities equal the sums over the set of measurements whose interval covers the sweep position, so each candidate is the weighted mean of that set with the stated cost.", "quantifier": "all measurement sets with positive ranges, every order std::sort may leave equal end points in, all steps (exact arithmetic)", "why_tests_cant": "loop invariant over all inputs", "anchors": ["common/include/rofl/common/tls_scalar_consensus.h", "estimateTranslationTls"]}
{"id": "C52", "title": "Truncated least squares: result", "statement": "The returned estimate is the weighted mean of one candidate consensus set and no other candidate considered has a lower cost; inlier flags mark exactly the measurements within range of the estimate. The cost of the estimate is at most that of the consensus set of any position of the line.", "quantifier": "all non-empty measurement sets with positive ranges (exact arithmetic)", "why_tests_cant": "all inputs", "anchors": ["common/include/rofl/common/tls_scalar_consensus.h", "estimateTranslationTls"]}
{"id": "C53", "title": "Peak finder in one dimension", "statement": "For a one-dimensional domain with pairwise different values and a positive window, the reported cells are exactly the cells other than the first that are strictly better than every other cell of their window (and pass the threshold filter), reported best first.", "quantifier": "all histograms, windows, thresholds, comparators", "why_tests_cant": "all histograms", "anchors": ["common/include/rofl/common/peak_finder_d.h", "PeakFinderD::detect"]}
{"id": "C54", "title": "Peak finder: every window maximum is reported", "statement": "Every cell that is strictly better than all other cells of its window is reported.", "quantifier": "all dimensions, histograms, windows", "why_tests_cant": "all histograms", "anchors": ["common/include/rofl/common/peak_finder_d.h", "PeakFinderD::detect"]}
{"id": "C55", "title": "Box registration: nearest surface point", "statement": "The associated point lies on the box surface and no surface point is closer to the query (exact arithmetic).", "quantifier": "all boxes with non-negative sides, all points", "why_tests_cant": "all reals", "anchors": ["geometry/include/rofl/geometry/box_registration.h", "BoxRegistration::associate"]}
{"id": "C56", "title": "Hough plane: parameters of a cell", "statement": "The two ways of asking for the plane parameters of one accumulator cell give the same plane.", "quantifier": "all configurations, all cells", "why_tests_cant": "all configurations", "anchors": ["geometry/src/hough_plane_detector.cpp", "geometry/include/rofl/geometry/hough_plane_detector.h", "HoughPlaneDetector::getPlaneParam"]}
{"id": "C57", "title": "Hough plane: vote binning", "statement": "A point votes, for each direction, only in the cell whose distance bin contains its projection, and never outside the accumulator.", "quantifier": "all points, configurations", "why_tests_cant": "all reals", "anchors": ["geometry/src/hough_plane_detector.cpp", "geometry/include/rofl/geometry/hough_plane_detector.h", "HoughPlaneDetector::insert"]}
{"id": "C58", "title": "Correspondence graph: edges", "statement": "After one insertSrc and one insertDst, two candidate pairs are linked exactly when they use different source items and different destination items, their source distance exceeds the minimum and source and destination distances differ by less than the tolerance; the relation is symmetric and irreflexive.", "quantifier": "all point sets, tolerances", "why_tests_cant": "all inputs", "anchors": ["geometry/src/correspondence_graph_association.cpp", "geometry/include/rofl/geometry/correspondence_graph_association.h", "CorrespondenceGraphAssociation::associate"]}
{"id": "C59", "title": "Correspondence graph: output", "statement": "associate stores the maximal consistent sets found in its output argument.", "quantifier": "all point sets", "why_tests_cant": "all inputs", "anchors": ["geometry/src/correspondence_graph_association.cpp", "geometry/include/rofl/geometry/correspondence_graph_association.h", "CorrespondenceGraphAssociation::associate"]}
{"id": "C60", "title": "Geographic conversions invert", "statement": "Converting latitude/longitude to local coordinates and back about one origin returns the original values whenever both scale factors are non-zero (exact arithmetic).", "quantifier": "all coordinates and origins", "why_tests_cant": "all reals", "anchors": ["geometry/src/gis.cpp", "geometry/include/rofl/geometry/gis.h", "convertLatLonToLocalXY", "convertLocalXYToLatLon"]}
{"id": "C61", "title": "Plane orientation predicate", "statement": "ccw(a,b,c) is positive exactly for counterclockwise triples: antisymmetric under swapping two points, invariant under rotation of the arguments and under rigid motions given by poseToIsometry2.", "quantifier": "all points and poses", "why_tests_cant": "all reals", "anchors": ["geometry/src/base_geometry2.cpp", "geometry/include/rofl/geometry/base_geometry2.h", "ccw", "poseToIsometry2"]}
{"id": "C62", "title": "Plane aligner: the computed frame", "statement": "The computed transform is a rigid motion whose third axis is the oriented plane normal, so points of the plane are mapped to one constant height.", "quantifier": "all plane coefficients with non-zero normal", "why_tests_cant": "all reals", "anchors": ["pcl/include/rofl/pcl/point_cloud_plane_aligner.h", "PointCloudPlaneAligner"]}
{"id": "C63", "title": "Directory listing", "statement": "getDirectoryFiles leaves the vector sorted and containing the old entries plus exactly the regular files of the directory.", "quantifier": "all directories, all prior vectors", "why_tests_cant": "all contents", "anchors": ["common/src/io.cpp", "getDirectoryFiles"]}
{"id": "C64", "title": "Index intervals: position arithmetic does not overflow", "statement": "For a box whose corners and cell count are int values, computing the linear position of any cell of the box never overflows int.", "quantifier": "all dimensions, all such boxes, all cells, both raster indexers", "why_tests_cant": "overflow only shows at extreme coordinates", "anchors": ["common/include/rofl/common/interval_indices.h", "StaticRasterIndexer::getPos", "RasterIndexer::getPos"]}
{"id": "C65", "title": "Index intervals: iteration over an empty interval with negative extents visits nothing", "statement": "When empty() is true, iterating from begin to end visits no cell.", "quantifier": "all intervals including negative extents", "why_tests_cant": "all sign combinations of extents", "anchors": ["common/include/rofl/common/interval_indices.h", "IntervalIndices::beginRaster", "IntervalIndices::endRaster", "IntervalIndices::empty"]}
{"id": "C66", "title": "Index intervals: size and emptiness without restrictions", "statement": "size() is the number of cells and empty() holds exactly when it is zero, for every interval.", "quantifier": "all intervals, negative and huge extents included", "why_tests_cant": "all extents", "anchors": ["common/include/rofl/common/interval_indices.h", "IntervalIndices::size", "IntervalIndices::empty"]}
{"id": "C67", "title": "Index intervals: constructors describe the requested box", "statement": "initBounds, initCentered and initMinMax produce the interval whose cells are exactly those with min <= i < min+dim, |i-center| <= halfwin, and min <= i <= max in every coordinate; max() returns the requested maximum.", "quantifier": "all dimensions, all bounds, all cells", "why_tests_cant": "unbounded dimension and bounds", "anchors": ["common/include/rofl/common/interval_indices.h", "IntervalIndices::initBounds", "IntervalIndices::initCentered", "IntervalIndices::initMinMax", "IntervalIndices::max"]}
{"id": "C68", "title": "Grid: re-initialisation gives a clean grid", "statement": "After initBounds/initCenter/initMinMax every cell of the grid holds the default value.", "quantifier": "all grids, all new domains, all cells", "why_tests_cant": "depends on the previous contents and sizes", "anchors": ["common/include/rofl/common/grid.h", "Grid::initBounds", "Grid::initCenter", "Grid::initMinMax"]}
{"id": "C69", "title": "FloatTraits: dividePow2 is defined for every number", "statement": "FloatTraits<F>::dividePow2(x, e) has defined behaviour for every finite x and every exponent e.", "quantifier": "all bit patterns, all exponents", "why_tests_cant": "exponent range", "anchors": ["common/include/rofl/common/numeric_traits.h", "FloatTraits::dividePow2"]}
{"id": "C70", "title": "Morton distance of floating point points is an ultrametric", "statement": "mortonDistanceFloat is symmetric, takes its least value exactly on equal points, satisfies the strong triangle inequality, and is the exponent of the largest aligned power-of-two cell separating the points, for all finite points.", "quantifier": "all finite points, all dimensions", "why_tests_cant": "metric laws over all triples", "anchors": ["common/include/rofl/common/morton_sort.h", "mortonDistanceFloat"]}
{"id": "C71", "title": "Power-of-two interval of two floating point numbers", "statement": "intervalPow2Float returns, for any two finite numbers in either order, the smallest dyadic interval holding both and a middle value that separates them, without undefined behaviour.", "quantifier": "all pairs of finite floats/doubles", "why_tests_cant": "minimality over all pairs; argument order", "anchors": ["common/include/rofl/common/morton_sort.h", "intervalPow2Float"]}
{"id": "C72", "title": "Morton split of two floating point points", "statement": "mortonSplitFloat is defined for any two finite points, in either order and also when some coordinates coincide.", "quantifier": "all pairs of finite points", "why_tests_cant": "undefined behaviour may look right in a test run", "anchors": ["common/include/rofl/common/morton_sort.h", "mortonSplitFloat"]}
{"id": "C73", "title": "Morton tree over integers: sort and lookup", "statement": "For integer coordinates, whatever public calls came before, findItem(q) succeeds, leaves the tree a Z-ordered permutation of everything inserted, and returns the number of items that precede q; insertions, sorting and lookups never fail.", "quantifier": "all integer types, dimensions, call sequences, queries, conforming std::sort", "why_tests_cant": "all call sequences interleaving insertions and queries (lazy sorting flag)", "anchors": ["common/include/rofl/common/morton_tree.h", "MortonTree::findItem", "MortonTree::sort", "MortonTree::insert"]}
{"id": "C74", "title": "Morton tree: level of an interval", "statement": "computeLevel(first,last) returns the smallest level whose aligned cube holds all items of the interval, not just its two ends, for integer coordinates.", "quantifier": "all call sequences, non-empty intervals", "why_tests_cant": "depends on convexity of cubes in Z-order", "anchors": ["common/include/rofl/common/morton_tree.h", "MortonTree::computeLevel"]}
{"id": "C75", "title": "Morton tree: insertion numbers", "statement": "If every insertion resets ids, the item with id k is exactly the k-th item inserted, through any mix of insertion functions, sorts and queries.", "quantifier": "all call sequences with fewer than 2^31 items", "why_tests_cant": "all call sequences", "anchors": ["common/include/rofl/common/morton_tree.h", "MortonTree::insert"]}
{"id": "C76", "title": "Parameters: command line parsing on ASCII arguments", "statement": "Reading argv binds each option name (dash, letter, ...) to the argument that follows it when that one is not itself an option, later bindings win, other words are ignored and argv is never indexed out of range, provided the character after a leading dash is ASCII; a non-ASCII one before the last argument is undefined behaviour.", "quantifier": "all argument vectors", "why_tests_cant": "all argument vectors", "anchors": ["common/include/rofl/common/param_map.h", "common/src/param_map.cpp", "ParamMap::read(int,char**)", "ParamMap::isOption"]}
{"id": "C77", "title": "Parameters: exact condition of the round trip", "statement": "Writing a table and reading it into an empty one restores the table if and only if every name and value is a non-empty word without white space or NUL, no name starts with '#', and every line fits the line buffer; an overlong line silently drops everything after it.", "quantifier": "all tables, all streams", "why_tests_cant": "necessity and sufficiency over all strings", "anchors": ["common/include/rofl/common/param_map.h", "common/src/param_map.cpp", "ParamMap::write", "ParamMap::read"]}
{"id": "C78", "title": "Profiler: what average and variance report", "statement": "With a single sample the average is that sample and the variance 0; with more, the average is the mean of all samples but the first, the accumulated square term is their sum of squared deviations, and the reported variance is that average divided by the number of samples minus one (exact arithmetic).", "quantifier": "all sample sequences", "why_tests_cant": "closed form over all sequences", "anchors": ["common/include/rofl/common/profiler.h", "common/src/profiler.cpp", "Profiler::updateStat", "MeasureStatistic::getVariance"]}
{"id": "C79", "title": "Peak finder: safe in every dimension", "statement": "For every non-empty int-representable domain of any dimension, every non-negative window, every histogram, comparator and threshold, detection terminates without undefined behaviour; it reports no cell twice, only cells of the domain that pass the threshold filter, and never the first cell of the domain.", "quantifier": "all dimensions, domains, histograms (ties included), windows, thresholds and comparators (not even an order is assumed)", "why_tests_cant": "unbounded state space; termination and memory safety of the window heap", "anchors": ["common/include/rofl/common/peak_finder_d.h", "PeakFinderD::detect"]}
{"id": "C80", "title": "Peak finder: reported cells are window maxima", "statement": "With pairwise different values, every reported cell is strictly better than all other cells of its window.", "quantifier": "all dimensions, histograms, windows", "why_tests_cant": "all histograms", "anchors": ["common/include/rofl/common/peak_finder_d.h", "PeakFinderD::detect"]}
{"id": "C81", "title": "Peak finder with a zero window", "statement": "On a line with pairwise different values and window 0, the reported cells are exactly the cells passing the threshold that are strictly better than some earlier cell (not all cells, as an empty neighbourhood would suggest), best first.", "quantifier": "all histograms, thresholds, comparators", "why_tests_cant": "all histograms", "anchors": ["common/include/rofl/common/peak_finder_d.h", "PeakFinderD::detect"]}
{"id": "C82", "title": "Truncated least squares: defined for every input", "statement": "No input makes the procedure divide by zero or read past the end of its tables.", "quantifier": "all measurement sets, including the empty one", "why_tests_cant": "all inputs, including degenerate ones", "anchors": ["common/include/rofl/common/tls_scalar_consensus.h", "estimateTranslationTls"]}
{"id": "C83", "title": "Truncated least squares: maximum consensus", "statement": "No position of the line has more measurements within range than the returned estimate (the header calls it the value with maximum consensus).", "quantifier": "all measurement sets", "why_tests_cant": "all inputs and all positions", "anchors": ["common/include/rofl/common/tls_scalar_consensus.h", "estimateTranslationTls"]}
{"id": "C84", "title": "Truncated least squares: estimate stays among the measurements", "statement": "The estimate lies between the smallest and the largest measured value; if all measurements agree it is their common value and every measurement is an inlier.", "quantifier": "all non-empty measurement sets with positive ranges (exact arithmetic)", "why_tests_cant": "all inputs", "anchors": ["common/include/rofl/common/tls_scalar_consensus.h", "estimateTranslationTls"]}
{"id": "C85", "title": "Fourier series bounds: exact composition", "statement": "For at least two coefficients findLUFourier returns the sums of the exact minima and maxima of the single harmonics (of even multiples of the angle) over the interval, in either order of its ends, and these bound the series at every point of the interval.", "quantifier": "all coefficient vectors with at least two entries, all intervals", "why_tests_cant": "uncountably many points", "anchors": ["common/include/rofl/common/functions.h", "common/src/functions.cpp", "findLUFourier"]}
{"id": "C86", "title": "Fourier evaluation lies within the Fourier bounds", "statement": "For the same coefficients, evaluateFourier at a point of an interval lies within the bounds findLUFourier reports for that interval.", "quantifier": "all coefficient vectors, intervals, points", "why_tests_cant": "uncountably many points", "anchors": ["common/include/rofl/common/functions.h", "common/src/functions.cpp", "findLUFourier", "evaluateFourier"]}
{"id": "C87", "title": "Angle normalisation with the library's period", "statement": "normalize360 returns the unique angle of [0, K_2PI) that differs from the input by a whole number of K_2PI, normalize180 the unique one of [0, pi) differing by a whole number of pi; both leave reduced angles alone; K_2PI exceeds 2 pi by less than 1e-9.", "quantifier": "all real angles", "why_tests_cant": "all reals", "anchors": ["common/include/rofl/common/functions.h", "common/src/functions.cpp", "normalize360", "normalize180"]}
{"id": "C88", "title": "fastCosSin accuracy", "statement": "fastCosSin is within 0.0012 of cosine and sine for every angle, stays in [-1,1], has period 2 pi and is exact at quarter turns (exact arithmetic).", "quantifier": "all real angles", "why_tests_cant": "uncountably many angles", "anchors": ["common/include/rofl/common/functions.h", "common/src/functions.cpp", "fastCosSin"]}
{"id": "C89", "title": "fastAtan accuracy", "statement": "fastAtan is within 1.5e-5 of the arc tangent on [-1,1] (exact arithmetic).", "quantifier": "all reals in [-1,1]", "why_tests_cant": "uncountably many arguments", "anchors": ["common/include/rofl/common/functions.h", "common/src/functions.cpp", "fastAtan"]}
{"id": "C90", "title": "fastAtan2 accuracy", "statement": "For every point but the origin, fastAtan2 is within 1.5e-5 of the point's polar angle in (-pi, pi] (exact arithmetic).", "quantifier": "all points of the plane but the origin", "why_tests_cant": "uncountably many points", "anchors": ["common/include/rofl/common/functions.h", "common/src/functions.cpp", "fastAtan2"]}
{"id": "C91", "title": "PNEBI values decrease with the order", "statement": "The values returned by evaluatePnebiVector are positive and do not increase with the order, as those of 2 exp(-x) I_k(x) do.", "quantifier": "all orders, all arguments", "why_tests_cant": "all arguments", "anchors": ["common/include/rofl/common/functions.h", "common/src/functions.cpp", "evaluatePnebiVector"]}
{"id": "C92", "title": "PNEBI of order 0 near the origin", "statement": "For |x| < 3.75 evaluatePnebi0Polynom(x) is 2 exp(-|x|) I_0(x) up to 1.6e-7 relative to 2 exp(-|x|), I_0 being the sum of its power series; for every x the value is positive and even in x (exact arithmetic).", "quantifier": "all reals", "why_tests_cant": "uncountably many arguments", "anchors": ["common/include/rofl/common/functions.h", "common/src/functions.cpp", "evaluatePnebi0Polynom"]}
{"id": "C93", "title": "PNEBI table construction", "statement": "init(n, tol) with n >= 1 and tol > 0 builds ceil(2/tol)+20 nodes with strictly increasing abscissas starting at 0; each row holds the n + 1 values evaluatePnebiVector computes at its abscissa.", "quantifier": "all orders and tolerances within int range", "why_tests_cant": "all orders and tolerances", "anchors": ["common/include/rofl/common/functions.h", "common/src/functions.cpp", "PnebiLUT::init"]}
{"id": "C94", "title": "PNEBI table construction is defined for every order", "statement": "init(n, tol) is defined for every order n >= 0 and tol > 0.", "quantifier": "all orders and tolerances", "why_tests_cant": "all orders", "anchors": ["common/include/rofl/common/functions.h", "common/src/functions.cpp", "PnebiLUT::init"]}
{"id": "C95", "title": "PNEBI table offers the documented orders", "statement": "After init(n, tol), eval(k, x) answers for every order k = 0..n (functions.h: LUT for order k = 0, .., n).", "quantifier": "all tables, orders, arguments", "why_tests_cant": "all orders", "anchors": ["common/include/rofl/common/functions.h", "common/src/functions.cpp", "PnebiLUT::eval"]}
{"id": "C96", "title": "ccw is the signed area", "statement": "ccw(p1,p2,p3) is the signed area of the triangle (base_geometry2.h: returns the signed area).", "quantifier": "all triples of points (exact arithmetic)", "why_tests_cant": "all points", "anchors": ["geometry/src/base_geometry2.cpp", "geometry/include/rofl/geometry/base_geometry2.h", "ccw"]}
{"id": "C97", "title": "Angle intervals with the library's period", "statement": "Turning counterclockwise from the begin to the end angle, where full turns are counted with the library's constant K_2PI, insideAngleInterval holds exactly for the angles met, begin included and end excluded; insideAngleIntervalEq includes the end; the pair version agrees.", "quantifier": "all angles (exact arithmetic)", "why_tests_cant": "uncountably many angles and wrap-arounds", "anchors": ["geometry/src/base_geometry2.cpp", "geometry/include/rofl/geometry/base_geometry2.h", "insideAngleInterval", "insideAngleIntervalEq"]}
{"id": "C98", "title": "Angle intervals with true turns", "statement": "insideAngleInterval accepts an angle exactly when its direction is on the counterclockwise arc from begin to end, whatever the number of full turns (2 pi) added to the arguments.", "quantifier": "all angles (exact arithmetic)", "why_tests_cant": "uncountably many angles", "anchors": ["geometry/src/base_geometry2.cpp", "geometry/include/rofl/geometry/base_geometry2.h", "insideAngleInterval"]}
{"id": "C99", "title": "Angular cone between two vectors is open", "statement": "insideAngleInterval(x, y, pBeg, pEnd) holds exactly for the points strictly between the two directions, counterclockwise from pBeg to pEnd.", "quantifier": "all non-zero vectors and points (exact arithmetic)", "why_tests_cant": "all directions", "anchors": ["geometry/src/base_geometry2.cpp", "geometry/include/rofl/geometry/base_geometry2.h", "insideAngleInterval"]}
{"id": "C100", "title": "Angular cone between two vectors: exact behaviour", "statement": "Up to half a turn the accepted points are those strictly between pBeg and pEnd (counterclockwise); beyond half a turn both sides of the cone and the origin are accepted as well.", "quantifier": "all non-zero vectors, all points (exact arithmetic)", "why_tests_cant": "all directions", "anchors": ["geometry/src/base_geometry2.cpp", "geometry/include/rofl/geometry/base_geometry2.h", "insideAngleInterval"]}
{"id": "C101", "title": "Pose to isometry", "statement": "poseToIsometry2(x, y, theta) maps p to p rotated by theta about the origin plus (x, y); both overloads agree; distances and signed areas are preserved.", "quantifier": "all poses and points (exact arithmetic)", "why_tests_cant": "all reals", "anchors": ["geometry/src/base_geometry2.cpp", "geometry/include/rofl/geometry/base_geometry2.h", "poseToIsometry2"]}
{"id": "C102", "title": "Local coordinates tell points apart", "statement": "For every origin, different geographic points have different local coordinates.", "quantifier": "all origins and points (exact arithmetic)", "why_tests_cant": "all reals", "anchors": ["geometry/src/gis.cpp", "geometry/include/rofl/geometry/gis.h", "convertLatLonToLocalXY"]}
{"id": "C103", "title": "Local coordinates do not depend on the choice of the prime meridian", "statement": "Adding one angle to the longitudes of the origin and of the point leaves the local coordinates unchanged.", "quantifier": "all origins, points and shifts (exact arithmetic)", "why_tests_cant": "all reals", "anchors": ["geometry/src/gis.cpp", "geometry/include/rofl/geometry/gis.h", "convertLatLonToLocalXY"]}
{"id": "C104", "title": "Local axes point east and north", "statement": "The local x coordinate increases with the longitude and y with the latitude; the origin has coordinates (0,0).", "quantifier": "all origins and points (exact arithmetic)", "why_tests_cant": "all reals", "anchors": ["geometry/src/gis.cpp", "geometry/include/rofl/geometry/gis.h", "convertLatLonToLocalXY"]}
{"id": "C105", "title": "ECEF coordinates", "statement": "At altitude 0 the point satisfies the equation of the WGS84 ellipsoid up to 2.1e-8; raising the altitude moves it along the unit vector with the given latitude and longitude by the altitude difference; adding to the longitude rotates it about the polar axis.", "quantifier": "all latitudes, longitudes, altitudes (exact arithmetic, float constants)", "why_tests_cant": "uncountably many points", "anchors": ["geometry/src/gis.cpp", "geometry/include/rofl/geometry/gis.h", "convertLatLonAltToECEF"]}
{"id": "C106", "title": "WGS84 constants are consistent", "statement": "ROFL_WGS84_ECCENTRICITY_2 is the square of ROFL_WGS84_ECCENTRICITY and 1 minus the square of the axis ratio, up to float precision.", "quantifier": "the constants", "why_tests_cant": "relation between constants, not a function output", "anchors": ["geometry/src/gis.cpp", "geometry/include/rofl/geometry/gis.h", "ROFL_WGS84_ECCENTRICITY"]}
{"id": "C107", "title": "Plane coefficients are oriented", "statement": "After setPlaneCoeffs the stored coefficients describe the same plane and the fourth one is positive (header: adjusts the plane s.t. coeff(3) > 0).", "quantifier": "all coefficients with non-zero normal", "why_tests_cant": "all reals", "anchors": ["pcl/include/rofl/pcl/point_cloud_plane_aligner.h", "PointCloudPlaneAligner::setPlaneCoeffs"]}
{"id": "C108", "title": "Aligning does not depend on the scale of the coefficients", "statement": "Multiplying the plane coefficients by a positive number does not change the computed transform.", "quantifier": "all planes, clouds, tolerances and factors (exact arithmetic)", "why_tests_cant": "all reals", "anchors": ["pcl/include/rofl/pcl/point_cloud_plane_aligner.h", "PointCloudPlaneAligner::compute"]}
{"id": "C109", "title": "Centre of the aligned frame", "statement": "The mean of the cloud points where the plane equation is below the tolerance is mapped onto the third axis; without such points the origin stays in place.", "quantifier": "all planes, clouds and tolerances (exact arithmetic)", "why_tests_cant": "all clouds", "anchors": ["pcl/include/rofl/pcl/point_cloud_plane_aligner.h", "PointCloudPlaneAligner::compute"]}
{"id": "C110", "title": "Points far from the plane do not influence the frame", "statement": "Adding to the cloud a point whose distance from the plane is at least the tolerance does not change the transform.", "quantifier": "all planes, clouds, tolerances (exact arithmetic)", "why_tests_cant": "all clouds", "anchors": ["pcl/include/rofl/pcl/point_cloud_plane_aligner.h", "PointCloudPlaneAligner::compute"]}
{"id": "C111", "title": "Directory listing does not depend on the enumeration order", "statement": "The result of getDirectoryFiles is the same for every order in which the system enumerates the entries and for every order of the prior content of the vector.", "quantifier": "all directories, enumeration orders, prior vectors", "why_tests_cant": "the order is chosen by the operating system", "anchors": ["common/src/io.cpp", "getDirectoryFiles"]}
{"id": "C112", "title": "A failed directory listing leaves the vector alone", "statement": "When getDirectoryFiles throws, the vector has its prior content.", "quantifier": "all directories, prior vectors", "why_tests_cant": "depends on file system errors", "anchors": ["common/src/io.cpp", "getDirectoryFiles"]}
{"id": "C113", "title": "Box registration: initial axes follow the sides", "statement": "After setDimension, the columns of the initial linear part are the eigenvectors of the cloud reordered so that a longer side never takes an eigenvector with a smaller eigenvalue.", "quantifier": "all sides, all clouds of at least two points, every conforming sort", "why_tests_cant": "all orders of sides", "anchors": ["geometry/include/rofl/geometry/box_registration.h"]}
{"id": "C114", "title": "Box registration: initial estimate defined", "statement": "estimateInitTranform has a defined result on every constructed object.", "quantifier": "all constructed boxes, all clouds", "why_tests_cant": "uninitialised reads are not observable by tests", "anchors": ["geometry/include/rofl/geometry/box_registration.h"]}
{"id": "C115", "title": "Box registration: initial estimate is a rotation", "statement": "The linear part of the initial estimate is a proper rotation.", "quantifier": "all boxes, all clouds, every conforming eigen solver", "why_tests_cant": "depends on signs chosen by the solver", "anchors": ["geometry/include/rofl/geometry/box_registration.h"]}
{"id": "C116", "title": "Box registration: step gives a rigid motion aligning centroids", "statement": "computeTransform returns a proper rotation and a translation that map the centroid of the matched surface points to the centroid of the cloud (exact arithmetic, 2D and 3D).", "quantifier": "all boxes with non-negative sides, all non-empty clouds, all rigid starting transforms, every conforming decomposition", "why_tests_cant": "all reals", "anchors": ["geometry/include/rofl/geometry/box_registration.h"]}
{"id": "C117", "title": "Box registration: planar step is a least squares optimum", "statement": "In 2D no rigid motion has a smaller sum of squared distances between the moved matched points and the cloud than the one returned.", "quantifier": "all boxes, non-empty clouds, rigid starting transforms, rigid competitors", "why_tests_cant": "all reals", "anchors": ["geometry/include/rofl/geometry/box_registration.h"]}
{"id": "C118", "title": "Box registration: planar step never increases the error", "statement": "In 2D the sum of squared distances of the cloud to the box surface never increases in one step.", "quantifier": "all boxes, non-empty clouds, rigid starting transforms", "why_tests_cant": "all reals", "anchors": ["geometry/include/rofl/geometry/box_registration.h"]}
{"id": "C119", "title": "Box registration: spatial step never increases the error", "statement": "In 3D the sum of squared distances of the cloud to the box surface never increases in one step.", "quantifier": "all boxes, non-empty clouds, rigid starting transforms", "why_tests_cant": "all reals", "anchors": ["geometry/include/rofl/geometry/box_registration.h"]}
{"id": "C120", "title": "Box registration: finite result", "statement": "computeTransform returns a finite transformation.", "quantifier": "all boxes, all clouds, rigid starting transforms", "why_tests_cant": "all clouds", "anchors": ["geometry/include/rofl/geometry/box_registration.h"]}
{"id": "C121", "title": "Hough planes: exact votes", "statement": "insert(points) adds to each cell the number of points whose signed distance along the cell's direction, in bins from the first one, truncates to the cell's bin (modulo 2^64); the spectrum of a direction becomes the sum of the squares of its cells; the configuration is unchanged.", "quantifier": "all reachable detectors, all point sets for which insert returns (exact arithmetic)", "why_tests_cant": "all detectors and point sets", "anchors": ["geometry/src/hough_plane_detector.cpp", "geometry/include/rofl/geometry/hough_plane_detector.h", "HoughPlaneDetector::insert"]}
{"id": "C122", "title": "Hough planes: when insert is defined", "statement": "insert(points) returns exactly when there is no direction at all, or there are at least eight longitudes and every distance offset converted to int is representable.", "quantifier": "all reachable detectors and point sets (exact arithmetic)", "why_tests_cant": "undefined behaviour need not show in a test", "anchors": ["geometry/src/hough_plane_detector.cpp", "geometry/include/rofl/geometry/hough_plane_detector.h", "HoughPlaneDetector::insert"]}
{"id": "C123", "title": "Hough planes: insert works for every accumulator size", "statement": "insert(points) has a defined behaviour for every detector with at least one bin in each dimension.", "quantifier": "all reachable detectors", "why_tests_cant": "all sizes", "anchors": ["geometry/src/hough_plane_detector.cpp", "geometry/include/rofl/geometry/hough_plane_detector.h", "HoughPlaneDetector::insert"]}
{"id": "C124", "title": "Hough planes: inserting in pieces", "statement": "Inserting two point sets one after the other leaves the same counters as inserting their concatenation.", "quantifier": "all reachable detectors and point sets", "why_tests_cant": "all splits of all point sets", "anchors": ["geometry/src/hough_plane_detector.cpp", "geometry/include/rofl/geometry/hough_plane_detector.h", "HoughPlaneDetector::insert"]}
{"id": "C125", "title": "Hough planes: the two insert overloads agree", "statement": "insert(points) and insert(begin, end, converter) leave the same counters for the same points.", "quantifier": "all reachable detectors and point sets", "why_tests_cant": "depends on the history of the object", "anchors": ["geometry/src/hough_plane_detector.cpp", "geometry/include/rofl/geometry/hough_plane_detector.h", "HoughPlaneDetector::insert"]}
{"id": "C126", "title": "Hough planes: normals", "statement": "getNormal(itheta, iphi) is the unit vector (cos theta cos phi, cos theta sin phi, sin theta) with theta = thetaMin + thetaRes*itheta and phi = phiMin + phiRes*iphi.", "quantifier": "all reachable detectors and directions (exact arithmetic)", "why_tests_cant": "all histories", "anchors": ["geometry/src/hough_plane_detector.cpp", "geometry/include/rofl/geometry/hough_plane_detector.h", "HoughPlaneDetector::getNormal"]}
{"id": "C127", "title": "Hough planes: documented default ranges", "statement": "After init(thetaNum, phiNum, rhoNum, rhoRes) thetaMin = -pi/2, thetaRes = pi/thetaNum, phiMin = 0, phiRes = 2 pi/phiNum and rhoMin = 0 (hough_plane_detector.h).", "quantifier": "all sizes", "why_tests_cant": "all sizes", "anchors": ["geometry/src/hough_plane_detector.cpp", "geometry/include/rofl/geometry/hough_plane_detector.h", "HoughPlaneDetector::init"]}
{"id": "C128", "title": "Hough planes: a point is near the plane it votes for", "statement": "A point that changes the count of a cell is nearer than rhoRes to the plane getPlaneParam(indices) gives for that cell.", "quantifier": "all reachable detectors, cells and points (exact arithmetic)", "why_tests_cant": "all reals", "anchors": ["geometry/src/hough_plane_detector.cpp", "geometry/include/rofl/geometry/hough_plane_detector.h", "HoughPlaneDetector::insert"]}
{"id": "C129", "title": "Hough planes: cell parameters are the bin centre", "statement": "A point that changes the count of a cell is within half of rhoRes of the plane of that cell (hough_plane_detector.h: parameters in the centre of the bin).", "quantifier": "all reachable detectors, cells and points", "why_tests_cant": "all reals", "anchors": ["geometry/src/hough_plane_detector.cpp", "geometry/include/rofl/geometry/hough_plane_detector.h", "HoughPlaneDetector::insert"]}
{"id": "C130", "title": "Hough planes: findPlanes result", "statement": "findPlanes(hypotheses) adds distinct cells of the accumulator, none in the first direction or the first distance bin, and leaves the whole vector (earlier content included) sorted by decreasing number of votes.", "quantifier": "all reachable detectors with at least one bin per dimension and non-negative windows, all earlier contents inside the accumulator, every conforming sort", "why_tests_cant": "all accumulators", "anchors": ["geometry/src/hough_plane_detector.cpp", "geometry/include/rofl/geometry/hough_plane_detector.h", "HoughPlaneDetector::findPlanes"]}
{"id": "C131", "title": "Hough planes: the strongest direction is reported", "statement": "When one direction alone has votes, findPlanes reports a plane in that direction.", "quantifier": "all reachable detectors", "why_tests_cant": "all accumulators", "anchors": ["geometry/src/hough_plane_detector.cpp", "geometry/include/rofl/geometry/hough_plane_detector.h", "HoughPlaneDetector::findPlanes"]}
{"id": "C132", "title": "Hough planes: parameters of the found planes", "statement": "findPlanes(planeParams) gives, in the order of findPlanes(hypotheses), the normal and minus the distance of each cell.", "quantifier": "all reachable detectors with at least one bin per dimension and non-negative windows", "why_tests_cant": "all accumulators", "anchors": ["geometry/src/hough_plane_detector.cpp", "geometry/include/rofl/geometry/hough_plane_detector.h", "HoughPlaneDetector::findPlanes"]}
{"id": "C133", "title": "Hough planes: init starts afresh", "statement": "init sets the given sizes and ranges, keeps the windows and leaves every counter at zero, whatever was inserted before and whatever the earlier sizes.", "quantifier": "all reachable detectors, all sizes and ranges", "why_tests_cant": "all histories", "anchors": ["geometry/src/hough_plane_detector.cpp", "geometry/include/rofl/geometry/hough_plane_detector.h", "HoughPlaneDetector::init"]}
{"id": "C134", "title": "Hough planes: windows given in physical units", "statement": "setPeakWindow(Scalar...) sets the smallest windows that cover the given extents.", "quantifier": "all reachable detectors with positive resolutions, all non-negative extents whose windows fit an int (exact arithmetic)", "why_tests_cant": "all reals", "anchors": ["geometry/src/hough_plane_detector.cpp", "geometry/include/rofl/geometry/hough_plane_detector.h", "HoughPlaneDetector::setPeakWindow"]}
{"id": "C135", "title": "Hough planes: out-of-range indices are rejected", "statement": "Every query given a direction or cell outside the accumulator stops the program with an assertion.", "quantifier": "all reachable detectors and indices", "why_tests_cant": "undefined behaviour need not show in a test", "anchors": ["geometry/src/hough_plane_detector.cpp", "geometry/include/rofl/geometry/hough_plane_detector.h", "HoughPlaneDetector::findParallelPlanes"]}
{"id": "C136", "title": "Hough planes: empty detector", "statement": "findPlanes on a default constructed detector returns no planes.", "quantifier": "all default constructed detectors", "why_tests_cant": "-", "anchors": ["geometry/src/hough_plane_detector.cpp", "geometry/include/rofl/geometry/hough_plane_detector.h", "HoughPlaneDetector::findPlanes"]}
{"id": "C137", "title": "Hough lines: votes are recorded", "statement": "After insert(points) the cell of a direction and distance bin containing a point has at least one vote.", "quantifier": "all detectors and point sets", "why_tests_cant": "all point sets", "anchors": ["geometry/src/hough_line_detector.cpp", "geometry/include/rofl/geometry/hough_line_detector.h", "HoughLineDetector::insert"]}
{"id": "C138", "title": "Hough lines: lines are found", "statement": "After inserting the points of a line, findLines reports a line.", "quantifier": "all detectors and point sets", "why_tests_cant": "all point sets", "anchors": ["geometry/src/hough_line_detector.cpp", "geometry/include/rofl/geometry/hough_line_detector.h", "HoughLineDetector::findLines"]}
{"id": "C139", "title": "Correspondence graph: associations", "statement": "associate(associations) returns, for every non-empty source and destination set, the associations of the maximal consistent sets.", "quantifier": "all point sets, functors, tolerances, any value of the process-wide recursion counter", "why_tests_cant": "the undefined behaviour depends on the allocator and the whole process history", "anchors": ["geometry/src/correspondence_graph_association.cpp", "geometry/include/rofl/geometry/correspondence_graph_association.h"]}
{"id": "C140", "title": "Correspondence graph: replacing the source set", "statement": "Calling insertSrc again replaces the source set: associate then builds the graph of the new set.", "quantifier": "all pairs of source sets", "why_tests_cant": "all inputs", "anchors": ["geometry/src/correspondence_graph_association.cpp", "geometry/include/rofl/geometry/correspondence_graph_association.h"]}
{"id": "C141", "title": "Correspondence graph: repeated associate", "statement": "Calling associate again on the same object builds the same graph.", "quantifier": "all objects", "why_tests_cant": "all inputs and call histories", "anchors": ["geometry/src/correspondence_graph_association.cpp", "geometry/include/rofl/geometry/correspondence_graph_association.h"]}
{"id": "C142", "title": "Correspondence graph: independence of history", "statement": "The outcome of associate is a function of the object and its arguments only, not of earlier calls on other objects in the process.", "quantifier": "all objects and histories", "why_tests_cant": "call histories across objects", "anchors": ["geometry/src/correspondence_graph_association.cpp", "geometry/include/rofl/geometry/correspondence_graph_association.h"]}
{"id": "C143", "title": "Morton tree: range insertion leaves the caller's items alone", "statement": "Inserting a range of items into a MortonTree does not change the items of the source container.", "quantifier": "all trees, ranges, reset flags", "why_tests_cant": "side effect on the argument for every range", "anchors": ["common/include/rofl/common/morton_tree.h", "MortonTree::insert"]}
{"id": "C144", "title": "Morton tree: box around a centre", "statement": "searchInBox(center, range, items) searches exactly the box of the points whose coordinates differ from those of the center by at most range, for every integer coordinate type.", "quantifier": "all integer types, trees, centres, ranges", "why_tests_cant": "overflow and wrap-around of the corners", "anchors": ["common/include/rofl/common/morton_tree.h", "MortonTree::searchInBox"]}
{"id": "C145", "title": "Parameters: reading a file", "statement": "Reading a parameter text whose lines have at most 1999 characters and no NUL gives each name the second word of the last line whose first word it is (lines starting with # are skipped), leaves all other names alone, and takes a last line without newline into account.", "quantifier": "all tables and texts", "why_tests_cant": "all texts: blank lines, leading white space, repeated names, missing final newline", "anchors": ["common/include/rofl/common/param_map.h", "common/src/param_map.cpp", "ParamMap::read"]}
{"id": "C146", "title": "Min-max heap as a priority queue, duplicates allowed", "statement": "After any interleaving of push and popTop (no popBottom), duplicates allowed, top() is a minimum.", "quantifier": "all strict weak orders, all such operation sequences", "why_tests_cant": "failing histories need several equal keys in special positions", "anchors": ["common/include/rofl/common/min_max_heap.h", "MinMaxHeap::popTop", "MinMaxHeap::top"]}
{"id": "C147", "title": "Peak finder on a line with ties: reported cells", "statement": "On a line, whatever the ties, no reported cell has a strictly better cell in its window.", "quantifier": "all histograms on a line, all positive windows", "why_tests_cant": "failing histograms need ties in special positions", "anchors": ["common/include/rofl/common/peak_finder_d.h", "PeakFinderD::detect"]}
{"id": "C148", "title": "Peak finder on a line with ties: missed cells", "statement": "On a line with a positive window, every cell but the first that is strictly better than all other cells of its window is reported, whatever the ties elsewhere.", "quantifier": "all histograms on a line, all positive windows", "why_tests_cant": "all histograms", "anchors": ["common/include/rofl/common/peak_finder_d.h", "PeakFinderD::detect"]}
{"id": "C149", "title": "Peak finder on a line with rare ties", "statement": "On a line with a positive window where only the worst value occurs more than twice: no reported cell has a strictly better cell in its window, the reported cells pass the threshold, are all different, none is better than one reported before it, and every cell but the first that passes, is strictly better than the others of its window and ties with no earlier cell outside it is reported.", "quantifier": "all histograms with such ties, thresholds, comparators", "why_tests_cant": "all histograms", "anchors": ["common/include/rofl/common/peak_finder_d.h", "PeakFinderD::detect"]}
{"id": "C150", "title": "The overall best cell of a histogram is reported, and first, in any dimension", "statement": "For every comparator that is a strict weak order, every box of cells of any dimension and every window of half-widths at least 1, a cell other than the first one that is strictly better than every other cell of the box, passes the minimum-value filter if there is one, and has another cell in its window is the first peak that PeakFinderD::detect reports.", "quantifier": "all comparators, all histograms on all boxes of any dimension (sizes within int), all windows, all thresholds", "why_tests_cant": "Whether the best cell survives depends on the walk of the sliding window, on the heap order produced by all other values and on the dimension; no finite set of histograms covers it.", "anchors": ["common/include/rofl/common/peak_finder_d.h"]}
{"id": "C151", "title": "In up to three dimensions the overall best cell is reported first, whatever the other values", "statement": "For every comparator that is a strict weak order and every box of at most three dimensions, a cell other than the first one that is strictly better than every other cell of the box, passes the minimum-value filter if there is one, and has another cell in its window is the first peak that PeakFinderD::detect reports, even when the other cells tie with each other.", "quantifier": "all comparators, all histograms on all boxes with one to three dimensions (sizes within int), all windows with non-negative half-widths, all thresholds", "why_tests_cant": "Ties put the heap out of order in ways that depend on the whole history of the scan; the claim is for every histogram.", "anchors": ["common/include/rofl/common/peak_finder_d.h"]}
{"id": "C152", "title": "The direction with the largest spectrum is the first one reported", "statement": "On every plane detector reachable through the public interface with at least one bin per axis and non-negative windows, if a direction other than (0,0) has a strictly larger getHoughSpectrum value than every other direction and another direction lies in its window, findSpectrumMax reports it first and findNormalMax reports its normal first.", "quantifier": "all reachable detectors, all points inserted, all window sizes", "why_tests_cant": "The spectra come from arbitrary point sets and ties among the other directions disorder the search; tests only see some clouds.", "anchors": ["geometry/src/hough_plane_detector.cpp", "geometry/include/rofl/geometry/hough_plane_detector.h"]}
{"id": "C153", "title": "The bin with the most votes along a direction is the first plane reported", "statement": "On every reachable plane detector with at least one bin per axis and a positive window along rho, for every direction in range, if a bin other than the first has strictly more votes than every other bin of that direction, both overloads of findParallelPlanes report it first: its indices, and its normal with the distance of that bin.", "quantifier": "all reachable detectors, all directions, all vote counts", "why_tests_cant": "Holds for every arrangement of votes, including ties among the weaker bins, which tests cannot enumerate.", "anchors": ["geometry/src/hough_plane_detector.cpp", "geometry/include/rofl/geometry/hough_plane_detector.h"]}
{"id": "C154", "title": "findPlanes reports the strongest bin of the strongest direction", "statement": "On every reachable plane detector, if one direction other than (0,0) has strictly the largest spectrum and another direction in its window, and a bin other than the first has strictly the most votes of that direction, then that bin is among the results of findPlanes, in the overload with indices and in the overload with parameters, for any correct sort.", "quantifier": "all reachable detectors, all sorting functions that sort by votes", "why_tests_cant": "Composes two peak searches and a sort over arbitrary accumulators.", "anchors": ["geometry/src/hough_plane_detector.cpp", "geometry/include/rofl/geometry/hough_plane_detector.h"]}
{"id": "C155", "title": "Normals and plane parameters correspond one to one, in order, to the reported indices", "statement": "On every reachable plane detector, findNormalMax returns exactly the normals of the directions of findSpectrumMax, in the same order, and for every direction in range findParallelPlanes with parameters returns exactly the normal and minus the distance of the bins returned by findParallelPlanes with indices, in the same order and without repetition.", "quantifier": "all reachable detectors with positive sizes, all directions", "why_tests_cant": "A test compares some lists; order and completeness are claimed for every accumulator.", "anchors": ["geometry/src/hough_plane_detector.cpp", "geometry/include/rofl/geometry/hough_plane_detector.h"]}
{"id": "C156", "title": "findPlanes returns exactly the union of findParallelPlanes over findSpectrumMax", "statement": "On every reachable plane detector, findPlanes called with an empty vector returns without repetition exactly the cells that findParallelPlanes returns for some direction returned by findSpectrumMax.", "quantifier": "all reachable detectors with positive sizes, all sorting functions that sort by votes", "why_tests_cant": "The three searches are separate code; their agreement is claimed for every accumulator.", "anchors": ["geometry/src/hough_plane_detector.cpp", "geometry/include/rofl/geometry/hough_plane_detector.h"]}
{"id": "C157", "title": "findParallelPlanes finds the local maxima of the votes when votes seldom tie", "statement": "On every reachable plane detector with a positive window along rho, for every direction in range along which only the lowest vote count occurs in three bins or more: the reported bins are sorted by votes, are not the first bin, and none has a bin with more votes within the window; and every bin other than the first with strictly more votes than all others within the window is reported unless an equally voted bin lies before its window.", "quantifier": "all reachable detectors, all directions, all vote counts with few ties", "why_tests_cant": "Quantifies over all rows of votes.", "anchors": ["geometry/src/hough_plane_detector.cpp", "geometry/include/rofl/geometry/hough_plane_detector.h"]}
{"id": "C158", "title": "PNEBI of order 0 for large arguments", "statement": "For |x| >= 3.75 evaluatePnebi0Polynom(x) is 2 exp(-|x|) I_0(x) up to 2e-7 times 2/sqrt(|x|), I_0 being the sum of its power series (exact arithmetic).", "quantifier": "every real x with |x| >= 3.75", "why_tests_cant": "The bound concerns an unbounded interval and the sum of an infinite series; tests compare with another approximation at a few points.", "anchors": ["common/include/rofl/common/functions.h", "common/src/functions.cpp", "evaluatePnebi0Polynom"]}
{"id": "C159", "title": "PNEBI of order 0 decreases", "statement": "evaluatePnebi0Polynom(x) decreases as |x| grows, as 2 exp(-|x|) I_0(x) does (exact arithmetic).", "quantifier": "all pairs of reals", "why_tests_cant": "the violation is a jump of 9e-9 at a single point", "anchors": ["common/include/rofl/common/functions.h", "common/src/functions.cpp", "evaluatePnebi0Polynom"]}
{"id": "C160", "title": "PNEBI table keeps its tolerance", "statement": "After init(n, tol) with n >= 1 and tol > 0, eval(0, x) differs from evaluatePnebi0Polynom(x) by at most tol.", "quantifier": "all orders, tolerances and arguments", "why_tests_cant": "all tolerances, every argument", "anchors": ["common/include/rofl/common/functions.h", "common/src/functions.cpp", "PnebiLUT::init", "PnebiLUT::eval"]}
{"id": "C161", "title": "PNEBI table accuracy for tolerances from 2e-6", "statement": "After init(n, tol) with n >= 1 and tol >= 2e-6, eval(0, x) differs from evaluatePnebi0Polynom(x) by at most tol / 3 for every |x| up to the last abscissa of the table.", "quantifier": "all orders and tolerances within int range, all arguments in the range of the table", "why_tests_cant": "the nodes are placed by an adaptive rule and the bound covers every point between them", "anchors": ["common/include/rofl/common/functions.h", "common/src/functions.cpp", "PnebiLUT::init", "PnebiLUT::eval"]}
{"id": "C162", "title": "PNEBI orders against the Bessel functions", "statement": "For |x| >= 1e-6 the ratio of order k to order 0 returned by evaluatePnebiVector(n, x) differs from I_k(x) / I_0(x) by at most (|x|/2)^(2m+2-k) (k-1)! / (m! (m+1)!) where m = 2 (n + floor(sqrt(40 n))); the ratio is too large for even k and too small for odd k.", "quantifier": "all n, all 1 <= k <= n, all |x| >= 1e-6", "why_tests_cant": "the error of the truncated downward recurrence for every order and argument", "anchors": ["common/include/rofl/common/functions.h", "common/src/functions.cpp", "evaluatePnebiVector"]}
{"id": "C163", "title": "Metres per degree on WGS84", "statement": "meterPerDegLat(lat) is within 8 m of the length of one degree of meridian of the WGS84 ellipsoid at latitude lat, and meterPerDegLon evaluated at a latitude between -90 and 90 is within 4 m of the length of one degree of the parallel at that latitude.", "quantifier": "all latitudes (exact arithmetic)", "why_tests_cant": "all reals, and the reference is a derivative on the ellipsoid", "anchors": ["geometry/src/gis.cpp", "geometry/include/rofl/geometry/gis.h", "meterPerDegLat", "meterPerDegLon"]}
{"id": "C164", "title": "Local coordinates are metres near the origin", "statement": "A point d degrees east of the origin has a local x within 4 |d| m of d times the length of a degree of the parallel through the origin, and a point d degrees north has a local y within 8 |d| m of d times the length of a degree of meridian.", "quantifier": "all origins and displacements (exact arithmetic)", "why_tests_cant": "all reals", "anchors": ["geometry/src/gis.cpp", "geometry/include/rofl/geometry/gis.h", "convertLatLonToLocalXY"]}
{"id": "C165", "title": "Plane aligner: the third axis looks toward the origin", "statement": "In the computed frame the origin of the cloud lies above every point of the plane by its distance from the plane (header: the axis Z of the resulting frame looks toward the sensor).", "quantifier": "all plane coefficients with non-zero normal, all clouds and tolerances (exact arithmetic)", "why_tests_cant": "all reals", "anchors": ["pcl/include/rofl/pcl/point_cloud_plane_aligner.h", "PointCloudPlaneAligner::setPlaneCoeffs", "PointCloudPlaneAligner::compute"]}
{"id": "C166", "title": "Plane aligner moves the plane to height 0", "statement": "The points of the plane have the third coordinate 0 in the computed frame.", "quantifier": "all plane coefficients with non-zero normal, all clouds and tolerances (exact arithmetic)", "why_tests_cant": "all reals", "anchors": ["pcl/include/rofl/pcl/point_cloud_plane_aligner.h", "PointCloudPlaneAligner::compute"]}
{"id": "C167", "title": "Plane aligner: direction of the first axis", "statement": "The first axis of the computed frame is the direction of the orthogonal projection on the plane of the x axis of the cloud if the third component of the normal is strictly the largest in absolute value, of the z axis otherwise; that projection is never shorter than the square root of 1/2.", "quantifier": "all plane coefficients with non-zero normal, all clouds and tolerances (exact arithmetic)", "why_tests_cant": "all reals, including ties between the components", "anchors": ["pcl/include/rofl/pcl/point_cloud_plane_aligner.h", "PointCloudPlaneAligner::compute"]}
{"id": "C168", "title": "Reduced angles stay in their range in double arithmetic", "statement": "normalize360 and normalize180, every operation rounded to double, return a number that is at least 0 and below the period, and normalising twice is the same as normalising once.", "quantifier": "all finite doubles", "why_tests_cant": "the exceptions are isolated doubles: tiny negative angles and the neighbours of multiples of the period", "anchors": ["common/include/rofl/common/functions.h", "common/src/functions.cpp", "normalize360", "normalize180"]}
{"id": "C169", "title": "Reduced angles are congruent in double arithmetic", "statement": "normalize360 and normalize180, every operation rounded to double, differ from the argument by a multiple of the period (6.28318530718, pi) up to 5 * 2^-53 * (|x| + 8), exceed the range from 0 to the period at most by that amount, and return a double that is already at least 0 and below the period unchanged.", "quantifier": "all finite doubles", "why_tests_cant": "all 2^64 doubles and every rounding error", "anchors": ["common/include/rofl/common/functions.h", "common/src/functions.cpp", "normalize360", "normalize180"]}
{"id": "C170", "title": "fastCosSin accuracy in double arithmetic", "statement": "fastCosSin, every operation rounded to double, is within 0.0012 + (|x| + 16) * 2^-49 of the cosine and of the sine.", "quantifier": "all angles with |x| <= 2^47", "why_tests_cant": "all rounding errors, in particular beside the jumps of floor", "anchors": ["common/include/rofl/common/functions.h", "common/src/functions.cpp", "fastCosSin"]}
{"id": "C171", "title": "fastCosSin is bounded by 1 in double arithmetic", "statement": "Both numbers returned by fastCosSin, every operation rounded to double, are at most 1 in magnitude.", "quantifier": "all finite doubles", "why_tests_cant": "the peak of the parabola is exactly 1, so one rounding error upwards breaks the bound; the exceptions are beyond 2^51", "anchors": ["common/include/rofl/common/functions.h", "common/src/functions.cpp", "fastCosSin"]}
{"id": "C172", "title": "fastAtan and fastAtan2 accuracy in double arithmetic", "statement": "fastAtan on -1..1 and fastAtan2 everywhere but at the origin, every operation rounded to double, are within 16e-6 radians of the angle; fastAtan2 is between -M_PI and M_PI, is not negative for y >= 0 and not positive for y < 0.", "quantifier": "all arguments, with |x| <= 1 for fastAtan and (x, y) not (0, 0) for fastAtan2", "why_tests_cant": "all rounding errors, also for quotients that underflow", "anchors": ["common/include/rofl/common/functions.h", "common/src/functions.cpp", "fastAtan", "fastAtan2"]}
{"id": "C173", "title": "fastCosSin is bounded by 1 up to 2^51", "statement": "Both numbers returned by fastCosSin, every operation rounded to double, are at most 1 in magnitude.", "quantifier": "all doubles with |x| <= 2^51", "why_tests_cant": "the peak of the parabola is exactly 1, so one rounding error upwards would break the bound", "anchors": ["common/include/rofl/common/functions.h", "common/src/functions.cpp", "fastCosSin"]}
{"id": "C174", "title": "fastAtanf and fastAtan2f accuracy in single precision", "statement": "fastAtanf on -1..1 and fastAtan2f everywhere but at the origin, every operation rounded as C++ prescribes, are within 20e-6 radians of the angle; fastAtan2f is not negative for y >= 0 and not positive for y < 0.", "quantifier": "all arguments, with |x| <= 1 for fastAtanf and (x, y) not (0, 0) for fastAtan2f", "why_tests_cant": "all pairs of floats and all rounding errors", "anchors": ["common/include/rofl/common/functions.h", "common/src/functions.cpp", "fastAtanf", "fastAtan2f"]}
{"id": "C175", "title": "fastAtan2f stays between -pi and pi", "statement": "fastAtan2f returns an angle between -M_PI and M_PI, as its comments say.", "quantifier": "all (x, y) other than (0, 0)", "why_tests_cant": "depends on the rounding of pi to single precision", "anchors": ["common/include/rofl/common/functions.h", "common/src/functions.cpp", "fastAtan2f"]}
{"id": "C176", "title": "fastCosSinf accuracy in single precision", "statement": "fastCosSinf, every operation rounded as C++ prescribes, whichever overload of floor is picked, is within 0.0012 + (|x| + 16) * 2^-20 of the cosine and of the sine for |x| <= 2^18, and at most 1 in magnitude for |x| <= 2^22.", "quantifier": "all angles within the stated bounds", "why_tests_cant": "all rounding errors, in particular beside the jumps of floor and at the peaks", "anchors": ["common/include/rofl/common/functions.h", "common/src/functions.cpp", "fastCosSinf"]}
{"id": "C177", "title": "A direction survives the fast angle functions", "statement": "Turning a vector into an angle with fastAtan2 and back with fastCosSin gives the direction of the vector: the two coordinates, multiplied by its length, differ from the vector by at most 0.0013 times the length. The same holds for fastAtan2f and fastCosSinf.", "quantifier": "all vectors other than (0, 0)", "why_tests_cant": "all directions and all rounding errors of both functions", "anchors": ["common/include/rofl/common/functions.h", "common/src/functions.cpp", "fastCosSin", "fastAtan2", "fastCosSinf", "fastAtan2f"]}
{"id": "C178", "title": "ccw on floats tells left turns from right turns", "statement": "Computed with floats (Scalar), ccw(p1, p2, p3) is positive exactly when the three points turn left.", "quantifier": "all points with float coordinates", "why_tests_cant": "which roundings change the sign depends on the coordinates", "anchors": ["geometry/src/base_geometry2.cpp", "geometry/include/rofl/geometry/base_geometry2.h", "ccw"]}
{"id": "C179", "title": "ccw and the cone test are exact on grids", "statement": "For points on a grid whose step is a power of two, at most 2048 steps away from the axes, the float results of ccw and of insideAngleInterval with vectors are exactly those of real arithmetic; in particular ccw > 0 exactly for left turns.", "quantifier": "all triples of such points, all steps 2^e with e >= -74", "why_tests_cant": "all points of all grids", "anchors": ["geometry/src/base_geometry2.cpp", "geometry/include/rofl/geometry/base_geometry2.h", "ccw", "insideAngleInterval"]}
{"id": "C180", "title": "Rounding error of ccw", "statement": "For points with coordinates up to B in magnitude, the float result of ccw is within 36 * 2^-24 * (B + 1)^2 of the determinant; if the determinant is larger than that its sign is right: positive exactly for left turns, negative exactly for right turns.", "quantifier": "all points, all B", "why_tests_cant": "all rounding errors of the seven operations", "anchors": ["geometry/src/base_geometry2.cpp", "geometry/include/rofl/geometry/base_geometry2.h", "ccw"]}
{"id": "C181", "title": "normalizeAngle2Pi on floats stays below 2 pi", "statement": "Computed with floats, normalizeAngle2Pi returns an angle in [0, 2 pi).", "quantifier": "all float angles", "why_tests_cant": "tiny negative angles are rounded up to the whole turn", "anchors": ["geometry/src/base_geometry2.cpp", "geometry/include/rofl/geometry/base_geometry2.h", "normalizeAngle2Pi"]}
{"id": "C182", "title": "Rounding error of normalizeAngle2Pi", "statement": "Computed with floats, whichever overload of floor is picked, normalizeAngle2Pi(x) differs from x minus a whole number of turns of 2 pi by at most 6 * 2^-24 * (|x| + 8), and lies in [0, 2 pi] up to the same amount.", "quantifier": "all float angles", "why_tests_cant": "all rounding errors, in particular beside the jumps of floor", "anchors": ["geometry/src/base_geometry2.cpp", "geometry/include/rofl/geometry/base_geometry2.h", "normalizeAngle2Pi"]}
{"id": "C183", "title": "insideAngleInterval on floats, away from the ends", "statement": "Computed with floats, for angles up to B in magnitude, insideAngleInterval and insideAngleIntervalEq answer right for every angle that lies at least 2^-18 * (B + 4) inside or outside the arc turning counterclockwise from the begin to the end.", "quantifier": "all angles and arcs of a width at least the margin away from 0 and from 2 pi", "why_tests_cant": "all rounding errors beside the jumps of floor and the ends of the arc", "anchors": ["geometry/src/base_geometry2.cpp", "geometry/include/rofl/geometry/base_geometry2.h", "insideAngleInterval", "insideAngleIntervalEq", "normalizeAngle2Pi"]}
{"id": "C184", "title": "State of a new Hough detector", "statement": "A HoughPlaneDetector or HoughLineDetector constructed with sizes has these sizes, peak windows of one cell in every direction and all counters at zero; a default-constructed one has sizes zero and the same windows.", "quantifier": "all sizes that fit", "why_tests_cant": "all sizes", "anchors": ["geometry/src/hough_plane_detector.cpp", "geometry/include/rofl/geometry/hough_plane_detector.h", "geometry/src/hough_line_detector.cpp", "geometry/include/rofl/geometry/hough_line_detector.h"]}
{"id": "C185", "title": "Defaults of the correspondence graph", "statement": "Without a call of setTolerance or setDistanceMin, candidate pairs are linked exactly when they use different items, the source distance is positive and the distances differ by less than 0.1.", "quantifier": "all item sets and distance functions", "why_tests_cant": "all item sets", "anchors": ["geometry/src/correspondence_graph_association.cpp", "geometry/include/rofl/geometry/correspondence_graph_association.h"]}
{"id": "C186", "title": "Ids of very large Morton trees", "statement": "With identifier reset the k-th inserted item has id k, however many items are inserted.", "quantifier": "all numbers of single insertions", "why_tests_cant": "more than 2^31 items", "anchors": ["common/include/rofl/common/morton_tree.h"]}
{"id": "C187", "title": "A box without sides is a point", "statement": "Before setDimension is called, BoxRegistration associates every point with the origin.", "quantifier": "all dimensions and points", "why_tests_cant": "all points", "anchors": ["geometry/include/rofl/geometry/box_registration.h", "BoxRegistration", "associate"]}
{"id": "C188", "title": "VectorArray entries", "statement": "A default-constructed VectorArray is zero; operator() reads the entry at the given index and writes that entry only.", "quantifier": "all dimensions, values and indices in range", "why_tests_cant": "all dimensions", "anchors": ["common/include/rofl/common/vector_array.h"]}
{"id": "C189", "title": "VectorArray += and *= with a vector", "statement": "v += w and v *= w change every entry of v by the matching entry of w; v += v doubles and v *= v squares every entry.", "quantifier": "all dimensions, values, additions and multiplications", "why_tests_cant": "all dimensions and aliases", "anchors": ["common/include/rofl/common/vector_array.h"]}
{"id": "C190", "title": "VectorArray *= with a scalar", "statement": "v *= s multiplies every entry of v by the value of s.", "quantifier": "all dimensions and values; s may be an entry of v", "why_tests_cant": "the scalar is passed by reference and may be an entry of the vector", "anchors": ["common/include/rofl/common/vector_array.h"]}
{"id": "C191", "title": "Local positions survive conversion to degrees on floats", "statement": "A position within 100 m of the origin, converted by convertLocalXYToLatLon and back by convertLatLonToLocalXY with Scalar = float, is recovered up to 10 cm.", "quantifier": "all origins, all positions, every accurate sin and cos", "why_tests_cant": "depends on the spacing of the floats at the latitude", "anchors": ["geometry/src/gis.cpp", "geometry/include/rofl/geometry/gis.h"]}
{"id": "C192", "title": "Degrees survive conversion to local coordinates on floats", "statement": "With Scalar = float, latitude and longitude converted to local coordinates and back change by at most (4 |lat - latOrg| + 91) / 2^24 and (4 |lon - lonOrg| + 181) / 2^24 degrees, if a degree of longitude at the origin measures at least 1 m.", "quantifier": "all origins and points, every cos accurate within 2^-24", "why_tests_cant": "all rounding errors", "anchors": ["geometry/src/gis.cpp", "geometry/include/rofl/geometry/gis.h"]}
{"id": "C193", "title": "Rounding error of the lengths of a degree", "statement": "With Scalar = float, meterPerDegLat is within 1 cm and meterPerDegLon within 4 cm of its formula.", "quantifier": "all latitudes and longitudes, every cos accurate within 2^-24", "why_tests_cant": "all rounding errors", "anchors": ["geometry/src/gis.cpp", "geometry/include/rofl/geometry/gis.h"]}
{"id": "C194", "title": "Earth-centred coordinates on floats, 10 cm", "statement": "With Scalar = float, convertLatLonAltToECEF is within 10 cm of its formula.", "quantifier": "all points up to 100 km of altitude, every accurate sin and cos", "why_tests_cant": "all rounding errors", "anchors": ["geometry/src/gis.cpp", "geometry/include/rofl/geometry/gis.h"]}
{"id": "C195", "title": "Earth-centred coordinates on floats, 5 m", "statement": "With Scalar = float, whichever overloads of sin and cos are picked, each coordinate of convertLatLonAltToECEF is within 5 m of its formula.", "quantifier": "all points up to 100 km of altitude, every sin and cos accurate within 2^-24", "why_tests_cant": "all rounding errors", "anchors": ["geometry/src/gis.cpp", "geometry/include/rofl/geometry/gis.h"]}
{"id": "C196", "title": "Rounding error of the conversion to the local frame", "statement": "With Scalar = float, the coordinates of convertLatLonToLocalXY are within 6 cm (x) and 3 cm (y) of the formula per degree of distance from the origin.", "quantifier": "all origins and positions, every cos accurate within 2^-24", "why_tests_cant": "all rounding errors", "anchors": ["geometry/src/gis.cpp", "geometry/include/rofl/geometry/gis.h"]}
{"id": "C197", "title": "The end of an arc on floats", "statement": "With Scalar = float, insideAngleInterval never contains the end of its arc and insideAngleIntervalEq always does, however the differences are rounded.", "quantifier": "all floats", "why_tests_cant": "comparison of rounded values", "anchors": ["geometry/src/base_geometry2.cpp", "geometry/include/rofl/geometry/base_geometry2.h"]}
{"id": "C198", "title": "Hough planes on floats: a plane collects the points on it", "statement": "With Scalar = float, a point that lies exactly on the plane getPlaneParam(indices) reports for a bin votes for this bin.", "quantifier": "all normals of the table, points, first bins and bin sizes", "why_tests_cant": "rounding of k * rhoRes and of the quotient", "anchors": ["geometry/src/hough_plane_detector.cpp", "geometry/include/rofl/geometry/hough_plane_detector.h"]}
{"id": "C199", "title": "Hough planes on floats: votes away from the borders", "statement": "With Scalar = float, a point that is farther than the rounding errors (2^-19 of the lengths involved) from the borders of a bin votes for the bin that contains it; a vote never comes from farther outside than that (first bin: than one bin more).", "quantifier": "all normals of the table, points, first bins and bin sizes, every sin and cos accurate within 2^-24", "why_tests_cant": "all rounding errors", "anchors": ["geometry/src/hough_plane_detector.cpp", "geometry/include/rofl/geometry/hough_plane_detector.h"]}
{"id": "C200", "title": "Hough planes on floats: distance of a voting point", "statement": "With Scalar = float, a point that votes for a bin is at most rhoRes plus 2^-19 of the lengths involved away from the plane getPlaneParam(indices) reports.", "quantifier": "all normals of the table, points, first bins and bin sizes", "why_tests_cant": "all rounding errors", "anchors": ["geometry/src/hough_plane_detector.cpp", "geometry/include/rofl/geometry/hough_plane_detector.h"]}
{"id": "C201", "title": "Hough planes on floats: table of normals", "statement": "With Scalar = float, the normals of a default initialised detector are within 2^-19 of the documented directions and have unit length within 7 / 2^19; the first bin starts at -(rhoNum / 2) rhoRes up to 3 / 2^24 of it.", "quantifier": "all accumulator sizes and cells, every sin and cos accurate within 2^-24", "why_tests_cant": "all sizes", "anchors": ["geometry/src/hough_plane_detector.cpp", "geometry/include/rofl/geometry/hough_plane_detector.h"]}
{"id": "C202", "title": "Hough planes on floats: bins keep the order", "statement": "With Scalar = float, of two points the one with the larger computed distance along a normal never votes for an earlier bin.", "quantifier": "all floats", "why_tests_cant": "all rounding errors", "anchors": ["geometry/src/hough_plane_detector.cpp", "geometry/include/rofl/geometry/hough_plane_detector.h"]}
{"id": "C203", "title": "TLS in floating point: defined, least cost, flags", "statement": "With Scalar = float or double, estimateTranslationTls returns for every non-empty set of finite measurements, whatever the order in which std::sort leaves equal end points; the estimate is that of a candidate such that no other has a lower computed cost, and inliers[i] tells whether the computed distance of value i from it is below range i. An empty set and a NaN among the measurements are undefined behaviour, arrays of different lengths end the program.", "quantifier": "all finite floats and doubles, all orders std::sort may produce", "why_tests_cant": "all rounding errors, overflows and ties", "anchors": ["common/include/rofl/common/tls_scalar_consensus.h"]}
{"id": "C204", "title": "TLS in floating point: estimate within the data", "statement": "With Scalar = float or double and positive ranges, the estimate of estimateTranslationTls lies between the smallest and the largest value.", "quantifier": "all finite measurements with positive ranges", "why_tests_cant": "all rounding errors", "anchors": ["common/include/rofl/common/tls_scalar_consensus.h"]}
{"id": "C205", "title": "TLS in floating point: unanimous measurements", "statement": "With Scalar = float or double and positive ranges, if all values are equal the estimate is that value and all measurements are inliers.", "quantifier": "all values and positive ranges", "why_tests_cant": "all rounding errors", "anchors": ["common/include/rofl/common/tls_scalar_consensus.h"]}
{"id": "C206", "title": "TLS in floating point: finite estimate", "statement": "With Scalar = float or double and positive ranges, finite measurements give a finite estimate.", "quantifier": "all finite measurements with positive ranges", "why_tests_cant": "all overflows", "anchors": ["common/include/rofl/common/tls_scalar_consensus.h"]}
{"id": "C207", "title": "TLS in floating point: exact on a grid", "statement": "With Scalar = float or double, if the values are multiples of a power of two, all ranges are the same power of two (at least 2^-19) and the sum of the magnitudes fits into the mantissa, then the estimate is the nearest number to the mean of the measurements around some position, it lies between the smallest and the largest value, and values that are all equal are returned exactly with all measurements inliers.", "quantifier": "all such measurements, all orders std::sort may produce", "why_tests_cant": "all values and numbers of measurements", "anchors": ["common/include/rofl/common/tls_scalar_consensus.h"]}
{"id": "C208", "title": "TLS in floating point: one measurement is returned", "statement": "With Scalar = float or double, the estimate for a single measurement with a positive range is its value.", "quantifier": "all values and ranges", "why_tests_cant": "all rounding errors", "anchors": ["common/include/rofl/common/tls_scalar_consensus.h"]}
{"id": "C209", "title": "TLS in floating point: one measurement, relative error", "statement": "With Scalar = double, the estimate for a single measurement is its value up to 3 / 2^53 of it, for values that are 0 or of magnitude 2^-300 to 2^300 and positive ranges up to 2^300; with Scalar = float up to 3 / 2^24, with 2^-40 to 2^40 and ranges up to 2^40.", "quantifier": "all such values and ranges", "why_tests_cant": "all rounding errors", "anchors": ["common/include/rofl/common/tls_scalar_consensus.h"]}
{"id": "C210", "title": "TLS in floating point: near-optimal on a grid", "statement": "With Scalar = float or double, for values on a grid and one power-of-two range (as in C207), the estimate and its set of measurements have a truncated cost (squared distances of the members plus the ranges of the others) that exceeds that of no other consensus set and position by more than 107 n^2 V^2 + 4 n r units of 2^-53 (2^-24), where V bounds the values and r is the range.", "quantifier": "all such measurements, all other positions, all orders std::sort may produce", "why_tests_cant": "all competitors and all rounding errors", "anchors": ["common/include/rofl/common/tls_scalar_consensus.h"]}
{"id": "C211", "title": "Index intervals: no operation overflows", "statement": "On intervals of int cells, the operations of IntervalIndices<Dim,int> (inside, max, last, intersect, stacked, translate, the constructors) never overflow: they return what exact integer arithmetic gives.", "quantifier": "all intervals whose cells have int coordinates, all dimensions", "why_tests_cant": "the limits of int are reached only by particular combinations of corner, extent and argument", "anchors": ["common/include/rofl/common/interval_indices.h"]}
{"id": "C212", "title": "Index intervals: no operation overflows far from the limits", "statement": "For intervals with corners and ends in [-2^30, 2^30) and displacements of at most 2^30, the operations inside, max, last, intersect, stacked and translate of IntervalIndices<Dim,int> are defined and return what exact integer arithmetic gives.", "quantifier": "all such intervals in any dimension, all points and displacements", "why_tests_cant": "a statement about all coordinates", "anchors": ["common/include/rofl/common/interval_indices.h"]}
{"id": "C213", "title": "Peak finder: when int arithmetic suffices", "statement": "For extents over which the boustrophedon walk moves by one cell at a time (all one- and two-dimensional domains, even middle extents, ...), PeakFinderD::detect with Index = int behaves as with exact integers if every window around a cell starts and ends (one past its last cell) at an int value and has an int extent; otherwise its behaviour is undefined.", "quantifier": "all such domains of int cells, all windows, histograms, comparators and filters", "why_tests_cant": "all domains and windows up to the limits of int", "anchors": ["common/include/rofl/common/peak_finder_d.h", "common/include/rofl/common/interval_indices.h"]}
{"id": "C214", "title": "Peak finder: int arithmetic suffices for domains of moderate size", "statement": "In any dimension, if for every coordinate |min| + extent + half window + number of cells <= 2^30, PeakFinderD::detect with Index = int never overflows, although the window may drift away from the current cell: it returns what exact integers give.", "quantifier": "all such domains, windows, histograms, comparators and filters", "why_tests_cant": "the drift of the window depends on all extents", "anchors": ["common/include/rofl/common/peak_finder_d.h", "common/include/rofl/common/interval_indices.h"]}
{"id": "C215", "title": "Peak finder: an empty domain is refused", "statement": "Calling PeakFinderD::detect on an empty domain (IntervalIndices::empty() holds) stops with the \"Empty domain!\" assertion.", "quantifier": "all domains, windows, histograms, comparators and filters", "why_tests_cant": "setDomain(imin, imax) takes any corners; an empty domain has infinitely many shapes", "anchors": ["common/include/rofl/common/peak_finder_d.h", "common/include/rofl/common/interval_indices.h"]}
{"id": "C216", "title": "Hough detectors: when the searches stay within int", "statement": "The searches of the Hough plane detector (findSpectrumMax, findParallelPlanes, findPlanes) and findLines of the line detector run the int peak finder without overflow, with the result of exact integers, exactly when for each axis searched 2 * window + 1 and size + window are below 2^31; otherwise their behaviour is undefined (findPlanes searches the distances only if a direction was found).", "quantifier": "all reachable detectors with at least one cell per axis and non-negative windows, all votes", "why_tests_cant": "window sizes and accumulator sizes up to the limits of int", "anchors": ["geometry/src/hough_plane_detector.cpp", "geometry/include/rofl/geometry/hough_plane_detector.h", "geometry/src/hough_line_detector.cpp", "geometry/include/rofl/geometry/hough_line_detector.h", "common/include/rofl/common/peak_finder_d.h"]}
{"id": "C217", "title": "Hough plane detector: no overflow with the default windows", "statement": "A plane detector constructed with sizes below 2^31 - 1 searches its accumulator without int overflow, whatever points were inserted.", "quantifier": "all sizes, resolutions and points", "why_tests_cant": "all sizes and point sets", "anchors": ["geometry/src/hough_plane_detector.cpp", "geometry/include/rofl/geometry/hough_plane_detector.h", "common/include/rofl/common/peak_finder_d.h"]}
{"id": "C218", "title": "DisjointSet: ids are exact below 2^31 elements", "statement": "With ids of type int, a disjoint set holding fewer than 2^31 elements answers every call as it would with unbounded integers: no node number, rank or set count overflows, and find decides connectivity.", "quantifier": "all initial sizes and all histories of calls by a legal client that leave fewer than 2^31 elements", "why_tests_cant": "all histories up to two thousand million elements", "anchors": ["common/include/rofl/common/disjoint_set.h", "common/src/disjoint_set.cpp"]}
{"id": "C219", "title": "DisjointSet: any number of elements that fits in memory", "statement": "A disjoint set keeps answering find, join, size and parents however many elements makeSet has added.", "quantifier": "all histories", "why_tests_cant": "needs 2^31 elements", "anchors": ["common/include/rofl/common/disjoint_set.h", "common/src/disjoint_set.cpp"]}
{"id": "C220", "title": "LabelSet: the printed text determines the set", "statement": "Printing a label set writes {a, b, c} with its labels once each in increasing order in decimal, so the text read back gives exactly the labels, and two label sets print the same text exactly when they contain the same labels.", "quantifier": "all label sets built by any program of insertions, removals, unions, intersections and differences", "why_tests_cant": "all sets of integers", "anchors": ["common/include/rofl/common/label_set.h", "common/src/label_set.cpp"]}
{"id": "C221", "title": "Morton order of floats: NaN coordinates", "statement": "Comparing two float points in Morton order is defined when a coordinate is NaN, and a sort of points with NaN coordinates does not run into undefined behaviour.", "quantifier": "all pairs of float points", "why_tests_cant": "all NaN patterns and points", "anchors": ["common/include/rofl/common/morton_sort.h"]}
{"id": "C222", "title": "Profiler: the average lies between minimum and maximum", "statement": "In double arithmetic the average reported for a label lies between the reported minimum and maximum.", "quantifier": "all sequences of measured times from 0 to 2^1000", "why_tests_cant": "all sequences of doubles", "anchors": ["common/include/rofl/common/profiler.h", "common/src/profiler.cpp"]}
{"id": "C223", "title": "Profiler: minimum, maximum, count and average in double arithmetic", "statement": "For non-negative times the reported minimum and maximum are exactly the least and the greatest sample and the count is the number of samples; the average is never negative and leaves the range from minimum to maximum by at most 3 * 2^-53 times the maximum, however many samples there are.", "quantifier": "all sequences of measured times from 0 to 2^1000", "why_tests_cant": "all sequences of doubles; error growth over arbitrarily many updates", "anchors": ["common/include/rofl/common/profiler.h", "common/src/profiler.cpp"]}
{"id": "C224", "title": "Correspondence graph on floats: links join compatible correspondences", "statement": "In float arithmetic (rofl::Scalar is float) the graph built by associate has one node per source and destination pair, at the row-major index; links are symmetric and irreflexive, and two correspondences are linked only if the source distance exceeds the minimal distance and the source and destination distances differ, as real numbers, by less than the tolerance.", "quantifier": "all float distance functors, item sets, tolerances and minimal distances", "why_tests_cant": "all float distances; rounding of the window bounds", "anchors": ["geometry/src/correspondence_graph_association.cpp", "geometry/include/rofl/geometry/correspondence_graph_association.h"]}
{"id": "C225", "title": "Correspondence graph on floats: compatible correspondences are linked", "statement": "Two correspondences whose source and destination distances differ by less than the tolerance (source distance above the minimal distance) are linked.", "quantifier": "all float distance functors, item sets, tolerances", "why_tests_cant": "the failure needs distances large against the tolerance", "anchors": ["geometry/src/correspondence_graph_association.cpp", "geometry/include/rofl/geometry/correspondence_graph_association.h"]}
{"id": "C226", "title": "Correspondence graph on floats: range of the default tolerance", "statement": "With the default tolerance, equal source and destination distances up to 1600000 are always linked; if all source distances are 2^21 = 2097152 or more, the graph has no link at all, even for identical sets.", "quantifier": "all float distance functors and item sets", "why_tests_cant": "all float distances; tests use small coordinates", "anchors": ["geometry/src/correspondence_graph_association.cpp", "geometry/include/rofl/geometry/correspondence_graph_association.h"]}
{"id": "C227", "title": "Correspondence graph on floats: exchange of source and destination", "statement": "With minimal distance 0 and positive distances, exchanging the source and the destination set keeps the links (with the two indices of each correspondence exchanged).", "quantifier": "all float distance functors, item sets, tolerances", "why_tests_cant": "the failure needs distances in different binades", "anchors": ["geometry/src/correspondence_graph_association.cpp", "geometry/include/rofl/geometry/correspondence_graph_association.h"]}
{"id": "C228", "title": "evaluateFourier: rounding error of the series", "statement": "For coefficients of at most 2^32 entries and library values of cos(theta) and sin(theta) within 2^-52, the double result of evaluateFourier differs from the exact Fourier sum by at most 14 * m * 2^-53 times the sum of the magnitudes of the coefficients, plus 8 * m * 2^-106, where m is the number of harmonics: the recurrence for the angles loses accuracy only linearly.", "quantifier": "all coefficient vectors and angles", "why_tests_cant": "all doubles; error growth over arbitrarily many harmonics", "anchors": ["common/include/rofl/common/functions.h", "common/src/functions.cpp"]}
{"id": "C229", "title": "ParamMap: integers survive set, write and read", "statement": "A value of type int or unsigned stored with setParam is returned unchanged by getParam of that type; the stored text is its canonical decimal numeral; after write and read into any other table, possibly holding the name already, getParam still returns it, for names that are plain words of at most 1987 characters not starting with '#', next to any other writable entries.", "quantifier": "all tables, names and all 32-bit values", "why_tests_cant": "infinitely many tables; both extremes of the type; composition of four functions", "anchors": ["common/include/rofl/common/param_map.h", "common/src/param_map.cpp"]}
{"id": "C230", "title": "ParamMap: negative numbers on the command line", "statement": "If the last option -k on the command line is followed by a decimal numeral with or without sign that fits an int, getParam<int> of k returns that number: a negative value is not mistaken for an option, whatever the other ASCII arguments.", "quantifier": "all argument vectors and tables", "why_tests_cant": "unbounded argument vectors", "anchors": ["common/include/rofl/common/param_map.h", "common/src/param_map.cpp"]}
{"id": "C231", "title": "ParamMap: which texts getParam<int> accepts", "statement": "getParam<int> of a present name stores n exactly when the text is an optional sign and decimal digits (leading zeros allowed) denoting a number n of the int range; for any other text, including numbers out of range, the variable keeps its old value and the result is still true.", "quantifier": "all texts, tables and variables", "why_tests_cant": "all texts; overflow detection over arbitrarily long digit strings", "anchors": ["common/include/rofl/common/param_map.h", "common/src/param_map.cpp"]}
{"id": "C232", "title": "ParamMap: getParam<unsigned> rejects texts that denote no unsigned", "statement": "getParam<unsigned> of a present name stores the number denoted by the text if it is in the range of unsigned, and otherwise leaves the variable as it was.", "quantifier": "all texts, tables and variables", "why_tests_cant": "all texts", "anchors": ["common/include/rofl/common/param_map.h", "common/src/param_map.cpp"]}
{"id": "C233", "title": "ParamMap: what getParam<unsigned> does with a text", "statement": "getParam<unsigned> of a present name whose text is an optional sign and decimal digits of magnitude below 2^32 stores the number modulo 2^32, so \"-1\" yields 4294967295; for every other text the variable keeps its value; the result is true in both cases.", "quantifier": "all texts, tables and variables", "why_tests_cant": "all texts", "anchors": ["common/include/rofl/common/param_map.h", "common/src/param_map.cpp"]}
{"id": "C234", "title": "ParamMap: lists of integers", "statement": "For a text [w1,w2,...] of non-empty elements, getParamContainer over a range of ints with the default delimiters stores the numbers of the elements up to the first one that is no int numeral, as far as the range reaches, and the default in the remaining places; getParamContainerInserter inserts exactly those numbers. So a list of ints written as decimal numerals between brackets is returned exactly, padded with the default.", "quantifier": "all lists of any length, all ranges, tables and names", "why_tests_cant": "unbounded lists; interplay of tokenizer, conversion and padding", "anchors": ["common/include/rofl/common/param_map.h", "common/src/param_map.cpp"]}
{"id": "C235", "title": "ParamMap: blanks in lists are ignored", "statement": "The text [1, 2] is read like [1,2]: blanks around the elements of a list do not matter.", "quantifier": "all lists of integers with blanks", "why_tests_cant": "all texts", "anchors": ["common/include/rofl/common/param_map.h", "common/src/param_map.cpp"]}
{"id": "C236", "title": "PnebiLUT::eval: samples are reproduced exactly in double arithmetic", "statement": "In double arithmetic eval(k, x) returns exactly the stored sample when |x| is an abscissa of the table, the last sample exactly when |x| is past the table, the same for x and -x, and the same values as the vector version eval(x, y), which leaves the entries above the maximal order alone.", "quantifier": "all tables of doubles, all orders and arguments", "why_tests_cant": "all tables; the subtraction, quotient and products must cancel exactly", "anchors": ["common/include/rofl/common/functions.h", "common/src/functions.cpp"]}
{"id": "C237", "title": "PnebiLUT::eval: the interpolated value stays between its samples", "statement": "In double arithmetic the value of eval(k, x) lies between the two samples that enclose |x|.", "quantifier": "all tables of doubles, all orders and arguments", "why_tests_cant": "depends on the rounding of every argument", "anchors": ["common/include/rofl/common/functions.h", "common/src/functions.cpp"]}
{"id": "C238", "title": "PnebiLUT::eval: rounding error of the interpolation", "statement": "In double arithmetic eval(k, x) differs from the exact linear interpolation between the two samples that enclose |x| by at most 12 * 2^-53 times the larger magnitude of the two, plus 4 * 2^-106, however close the abscissas are.", "quantifier": "all tables of doubles, all orders and double arguments", "why_tests_cant": "all doubles; cancellation in the differences of abscissas", "anchors": ["common/include/rofl/common/functions.h", "common/src/functions.cpp"]}
{"id": "C239", "title": "ParamMap: bool parameters", "statement": "A bool stored with setParam is returned by getParam<bool>, also after write and read. For a text that is a numeral of 0 or 1 (optional sign, leading zeros) getParam<bool> yields that truth value; for every other text the variable keeps its value; the result is true whenever the name is present.", "quantifier": "all tables, names, texts and values", "why_tests_cant": "all texts", "anchors": ["common/include/rofl/common/param_map.h", "common/src/param_map.cpp"]}
{"id": "C240", "title": "ParamMap: the words true and false", "statement": "getParam<bool> of a parameter whose text is true yields true, and of one whose text is false yields false.", "quantifier": "all tables and names with such a text", "why_tests_cant": "the conversion fails with a message only and the call still returns true; a test whose variable already holds the value passes", "anchors": ["common/include/rofl/common/param_map.h", "common/src/param_map.cpp"]}
{"id": "C241", "title": "Box registration: initial estimate takes the principal axes of the cloud", "statement": "After setDimension, for a cloud of at least two points the translation of the initial estimate is the centroid of the cloud, and its axes are orthonormal directions along which the cloud is uncorrelated, a longer side never having a smaller variance of the cloud than a shorter one (the identity added to the covariance does not matter). A cloud of less than two points gives the identity.", "quantifier": "all dimensions, sides and clouds, every conforming sort and eigen solver (exact arithmetic)", "why_tests_cant": "all clouds; the sum of outer products, the identity and the order of the axes must fit together", "anchors": ["geometry/include/rofl/geometry/box_registration.h"]}
{"id": "C242", "title": "Box registration: nearest point in floating point", "statement": "In float and double arithmetic associate returns a point exactly on the surface of the box; for a query outside the box it is exactly a nearest one, and for a query inside its squared distance exceeds the least one by a factor of at most 1 + 5 u, u = 2^-53 for double and 2^-24 for float.", "quantifier": "all dimensions, all boxes whose half sides are numbers of the format, all queries", "why_tests_cant": "depends on the rounding of every query", "anchors": ["geometry/include/rofl/geometry/box_registration.h"]}
{"id": "C243", "title": "Box registration: the associated point is exactly nearest in floating point", "statement": "In double arithmetic associate returns a surface point that is nearest to the query.", "quantifier": "all dimensions, all boxes whose half sides are doubles, all queries", "why_tests_cant": "needs two distances that differ but round to the same double", "anchors": ["geometry/include/rofl/geometry/box_registration.h"]}
{"id": "C244", "title": "Hough detectors: windows cover the given extents in float arithmetic", "statement": "In float arithmetic the window set by setPeakWindow(Scalar...) spans at least the given extent.", "quantifier": "all positive resolutions and extents of at most 2^30 bins", "why_tests_cant": "depends on the rounding of the quotient", "anchors": ["geometry/src/hough_plane_detector.cpp", "geometry/include/rofl/geometry/hough_plane_detector.h"]}
{"id": "C245", "title": "Hough detectors: windows of whole bins in float arithmetic", "statement": "In float arithmetic an extent that is exactly n bins, |n| < 2^24, sets a window of n bins, in the plane detector and in the line detector.", "quantifier": "all resolutions other than zero, all such n", "why_tests_cant": "all floats; a quotient rounded up would add a bin", "anchors": ["geometry/src/hough_plane_detector.cpp", "geometry/include/rofl/geometry/hough_plane_detector.h"]}
{"id": "C246", "title": "ScopedTimer measures its scope", "statement": "Every block that begins with a ScopedTimer variable adds to the Profiler exactly one measurement of its label, taken when the block ends and equal to the time spent in the block, inner timed blocks included; count, minimum and maximum of every label are those of its blocks.", "quantifier": "all programs of nested and repeated blocks, all labels and durations (exact arithmetic, steady clock)", "why_tests_cant": "all nestings; tests cannot fix the clock", "anchors": ["common/include/rofl/common/profiler.h", "common/src/profiler.cpp"]}
{"id": "C247", "title": "ROFL_COMMON_PROFILER_SCOPED_TIMER_HERE times the scope it stands in", "statement": "The macro adds a measurement equal to the time from its line to the end of the enclosing block.", "quantifier": "all programs using the macro", "why_tests_cant": "a test sees a measurement under the right label and a non-negative time", "anchors": ["common/include/rofl/common/profiler.h", "common/src/profiler.cpp"]}
{"id": "C248", "title": "ROFL_VARn writes each argument after its own name", "statement": "ROFL_VAR1 ... ROFL_VAR7 write on std::cout one line with file, line and, for every argument in order, its source text followed by its value, and evaluate every argument exactly once.", "quantifier": "all uses of the macros: all arguments with any values and side effects, all places", "why_tests_cant": "the text depends on the arguments; a test with equal or unchecked values passes", "anchors": ["common/include/rofl/common/macros.h"]}
{"id": "C249", "title": "ROFL_ASSERT and ROFL_ASSERT_VARn", "statement": "The condition is evaluated exactly once; if it holds nothing is written, no other argument is evaluated and the program goes on; otherwise the failed condition with file and line is written on std::cerr, the line of ROFL_VARn on std::cout, and the program stops with exit(-1).", "quantifier": "all conditions and arguments, with side effects, all numbers of arguments 0-5", "why_tests_cant": "a failing assertion ends the test program", "anchors": ["common/include/rofl/common/macros.h"]}
{"id": "C250", "title": "Stamped strings sort by time", "statement": "Of two strings of generateStampedString with the same prefix and postfix, one precedes the other in the order of std::string exactly when its local time is earlier.", "quantifier": "all prefixes and postfixes, all pairs of local times with years 1000-9999", "why_tests_cant": "all pairs of times; the clock cannot be set in a test", "anchors": ["common/src/io.cpp"]}
{"id": "C251", "title": "Stamped strings are distinct", "statement": "Calls of generateStampedString at different instants give different strings.", "quantifier": "all prefixes, postfixes and pairs of instants", "why_tests_cant": "a test that waits between the calls passes", "anchors": ["common/src/io.cpp"]}
