# Formal model of dlr1516/rofl in Rocq (Coq 8.16.1)

## Layout

Every component X has files under `rocq/theories/`:

* `XModel.v`  - executable Gallina model; each definition cites file and lines in /repo; no proofs.
* `XSpec.v`   - small independent specification (where the statements need vocabulary of their own).
* `XProofs.v` (and further proof files) - lemmas and proofs.
* `XProps.v`  - only the property theorems (`exact lemma` or a short derivation), `Print Assumptions` beneath each, and
  `Example`s showing that the hypotheses are met by non-trivial cases.

`Base.v` has the outcome monad: `Ret v` (normal result), `UB` (undefined behaviour), `Exit` (failed `ROFL_ASSERT`), `Stuck` (fuel
exhausted; proved unreachable where a loop is claimed to terminate).

Naming: `Cnn_..._refuted` proves that the English property is false of the faithful model, with a witness; `Cnn_..._partial` proves
a stated part of a property that is not proved, or not true, in full; other `Cnn_...` theorems prove the property or give exact facts
about it. Properties whose full wording is false carry the status "partial" in MANIFEST.json; exact or restricted versions are listed as
properties of their own.

## Modelling conventions

* C++ `int`/`size_t` values that cannot overflow in the modelled use are `Z`/`nat`; where overflow matters the wrap
  (`mod 2^w`) or the undefined behaviour is explicit.
* Undefined behaviour (out-of-range access, dereferencing end, shift out of range, signed overflow, division by zero
  of integers, conversion of a real outside the range of int) is the distinct outcome `UB`, never a default value.
* `ROFL_ASSERT` failure calls `exit(-1)`: outcome `Exit`.
* Floating point: bit-level functions (bit_manip, FloatTraits, Morton float order) are modelled on bit patterns.
  Numeric algorithms (TLS, profiler, Fourier, PNEBI, box registration, Hough, GIS, geometry, aligner) are modelled over exact
  rationals or reals; rounding, overflow, NaN and infinities are outside those models and each file says so.
* STL containers are modelled by lists (`std::vector`, `std::array`), strictly sorted lists (`std::set`, `std::map`).
  `std::sort` is a parameter assumed to return a sorted permutation (any one, where equivalent elements exist); `std::lower_bound`,
  `std::upper_bound`, `std::equal`, `std::set_union` etc. are written out as the standard describes them.
* Eigen and PCL: small vectors and matrices are tuples with the operations written out; `JacobiSVD` is a parameter assumed to return
  a singular value decomposition (its existence is proved in 2D and 3D).

## Per property

Each row: what is modelled (model file, and the source lines named in the anchors of properties.jsonl), the theorems, how they are proved or why the claim is false of the code.

| Id | Claim | Model | Status | How / why |
|---|---|---|---|---|
| C01 | Disjoint sets: find decides connectivity | DisjointSet | proved | Representation invariant (ranks grow along parents), refinement to the equivalence closure of the joined pairs. |
| C02 | Disjoint sets: size and number of sets | DisjointSet | proved | Representation invariant (ranks grow along parents), refinement to the equivalence closure of the joined pairs. |
| C03 | Disjoint sets: setNum after makeSet | DisjointSet | partial | The property is false of the code: refuted with a witness (makeSet leaves the counter alone); the partial theorem gives the exact value setNum() returns. |
| C04 | Disjoint sets: find is observably pure | DisjointSet | proved | Representation invariant (ranks grow along parents), refinement to the equivalence closure of the joined pairs. |
| C05 | Disjoint sets: memory safety and ids out of range | DisjointSet | proved | Also shows which calls with invalid ids are undefined behaviour. |
| C06 | Disjoint sets: parents enumerates one representative per set | DisjointSet | proved | Representation invariant (ranks grow along parents), refinement to the equivalence closure of the joined pairs. |
| C07 | Disjoint sets: trees stay shallow | DisjointSet | proved | Representation invariant (ranks grow along parents), refinement to the equivalence closure of the joined pairs. |
| C08 | Label sets: set algebra | LabelSet | proved | Membership characterisation by induction over sorted lists. |
| C09 | Label sets: equality operator | LabelSet | partial | False of the code: refuted with a witness; proved for sets of equal size, and the exact behaviour in all cases is characterised. |
| C10 | Min-max heap: contents are a multiset | MinMaxHeap | proved | Any comparator, any history. Permutation lemmas and the min-max order over ancestors, by induction on the loops. |
| C11 | Min-max heap: extremes after pushes | MinMaxHeap | proved | Also allows popBottom between the pushes. Permutation lemmas and the min-max order over ancestors, by induction on the loops. |
| C12 | Min-max heap: extremes under mixed operations, pairwise inequivalent elements | MinMaxHeap | proved | Needs inequivalence only at the moments popTop is called. Permutation lemmas and the min-max order over ancestors, by induction on the loops. |
| C13 | Min-max heap: extremes under mixed operations, duplicates allowed | MinMaxHeap | partial | False of the code: heapDownMin keeps sinking below the child it swapped with; refuted with three equivalent elements (both ends wrong). Proved whenever no element has more than two equivalent copies at each popTop, or (tame) more generally when every element with more copies comes last in order. |
| C14 | Min-max heap: next extremes | MinMaxHeap | partial | False of the code: refuted for nextTop (4 elements) and nextBottom (4 elements). Proved for nextTop with 2, 3 or at least 6 elements and nextBottom with 2 or 3. |
| C15 | Min-max heap: no out-of-range access | MinMaxHeap | proved | Any comparator, even one that is not an order; size_t wrap-around of indices is outside the model. |
| C16 | Index intervals: linear position and multi-index are inverse bijections | Interval | proved | Boxes of int coordinates with positive extents and cell count below 2^31. |
| C17 | Index intervals: iteration visits each cell once | Interval | proved | Extents may be zero; negative extents are C65. Mixed radix induction over the dimensions. |
| C18 | Boustrophedon order: consecutive cells are neighbours (1 and 2 dimensions, and even middle extents) | Interval | proved | Mixed radix induction over the dimensions. |
| C19 | Boustrophedon order: consecutive cells are neighbours (all dimensions) | Interval | partial | False of the code for three or more dimensions: refuted with a witness; the exact condition on the extents is proved (iff). |
| C20 | Index intervals: intersection, translation and stacking | Interval | proved | Mixed radix induction over the dimensions. |
| C21 | Index intervals: size and emptiness | Interval | proved | Unrestricted claim is C66. Mixed radix induction over the dimensions. |
| C22 | Grid: cells are independent storage | Interval | proved | For every grid reachable through the public interface. Mixed radix induction over the dimensions. |
| C23 | Leading-zero count | Bits | proved | Bit-level lemmas for every width, no enumeration of 32 or 64 bit values. |
| C24 | Power-of-two rounding | Bits | proved | Bit-level lemmas for every width, no enumeration of 32 or 64 bit values. |
| C25 | Float decomposition round trips | Bits | proved | Also shows what happens outside the exponent range. Bit-level lemmas for every width, no enumeration of 32 or 64 bit values. |
| C26 | Integer traits: log2 of the modulus | Bits | partial | False for int64_t (uses nlz8): refuted; exact int64 result proved. Undefined at INT32_MIN. Proved for all other types and values. |
| C27 | Integer traits: rounding to powers of two | Bits | partial | Undefined at the minimum of int32_t/int64_t (refuted); proved for every other value of every type, with the value returned when the result does not fit. |
| C28 | Morton comparison of integer points is a total order equal to Z-order | Morton | partial | Proved for every width, signedness and every dimension up to 2^BIT_NUM (the range of the lastDim variable). Refuted beyond: with 8-bit coordinates and 257 dimensions lastDim wraps to 0 and two different points compare equal. |
| C29 | Morton distance of integer points | Morton | proved | Symmetry, zero exactly for equal points, ultrametric inequality, range 0..BIT_NUM, and the exact characterisation by shared aligned cubes. |
| C30 | Power-of-two interval of two integers | Morton | partial | Refuted in three ways: equal arguments and blocks of 2^31..2^(BIT_NUM-1) elements shift out of range (exact UB condition proved); the whole range of an unsigned type gets mid = 2^(w-1)-1. All other pairs: smallest aligned block, midpoint (C30_block_partial). |
| C31 | Morton split of integer points | Morton | partial | Refuted: undefined as soon as one coordinate agrees (C31_undefined). When every coordinate pair is handled by intervalPow2Int: both points in the same smallest aligned block, mid separates them in Z-order and along the deciding coordinate. |
| C32 | Morton comparison of floating point points is a strict weak order | MortonFloat | partial | Strict total order equal to the Z-order of the expansions for singles that are +0 or at least 2^-103; refuted for negative coordinates (a 3-cycle) and signed zeros; double: undefined for every pair with different coordinates of one sign. |
| C33 | Exclusive-or of floating point numbers | MortonFloat | partial | Exact value for normal singles of one sign with a normal result; opposite signs give infinity; refuted (undefined) for distant negative singles, for results below the normal range, for all different doubles of one sign; wrong value for subnormals. |
| C34 | Morton tree: sort and lookup | MortonTree | partial | Proved for integer coordinates (see C73) and for single precision points with coordinates +0 or at least 2^-103; false in general for floats because the comparison is not an order (C32) and undefined for doubles. |
| C35 | Morton tree: item ids | MortonTree | partial | Ids are insertion numbers with reset (C75) and kept by the converting insertion; refuted for the other insertions without reset, which store -1. |
| C36 | Morton tree: box search | MortonTree | partial | Refuted: over integers the search never reports any item and is undefined when the upper corner follows all items in Z-order. |
| C37 | Parameters: map laws | Param | proved | Histories of set/get/clear against an independent last-writer specification; get laws for every value type and conversion pair. |
| C38 | Parameters: write then read restores the table | Param | proved | Also over a non-empty table (read overrides) and for commented output. |
| C39 | Parameters: the round trip needs its side conditions | Param | partial | False for arbitrary texts: witnesses for empty value, embedded space, leading '#'. The exact condition is C77. |
| C40 | Parameters: command line parsing | Param | partial | Proved when the character after a leading dash is ASCII (C76); refuted otherwise: std::isalpha on a negative char is undefined. |
| C41 | Parameters: tilde expansion | Param | partial | Refuted: replacing a value erases the element under the loop iterator (undefined). Exact condition for undefined behaviour proved; otherwise nothing changes. |
| C42 | Parameters: container values | Param | proved | Tokens characterised by an inductive relation, proved equivalent; inserter variant included. |
| C43 | Profiler: count, minimum, maximum, total | Profiler | proved | Exact rationals; count, minimum, maximum, label isolation, printed lines. |
| C44 | Profiler: mean and variance | Profiler | partial | Refuted: updateStat divides by the old count, so the first sample is dropped, and getVariance divides the average instead of the squared deviations. C78 states what is reported. |
| C45 | Fourier evaluation | Functions | proved | Exact real arithmetic, all coefficient vectors; the model returns whether the diagnostic was printed. |
| C46 | Cosine bounds on an interval | Functions | proved | Exact real arithmetic; the returned values are the minimum and the maximum over the interval, given in either order. |
| C47 | Fourier series bounds on an interval | Functions | partial | Refuted for the empty (even) vector, which is read out of bounds; C47_bounds_partial covers every vector with at least two coefficients. Exact composition in C85. |
| C48 | Angle normalisation | Functions | partial | normalize360 reduces by K_2PI = 6.28318530718 > 2 pi, so 2 pi is not reduced (refuted for the period 2 pi); with the library's own period and for normalize180 it holds, see C87. |
| C49 | PNEBI recurrence | Pnebi | proved | Exact real arithmetic. The values extend to a positive solution of the recurrence up to the starting index that ends with 0 there, which determines them. |
| C50 | PNEBI table lookup | Pnebi | proved | Exact real arithmetic, every table with increasing abscissas from 0 (what init builds, C93). |
| C51 | Truncated least squares: running sums are exact | Tls | proved | Exact rational arithmetic; for equal end points any order left by std::sort. |
| C52 | Truncated least squares: result | Tls | proved | Exact rational arithmetic; strict minimality also against the consensus set of every position. |
| C53 | Peak finder in one dimension | Peak | proved | Any strict weak order, any int domain, any positive window. Sliding window invariant on top of the interval and heap theorems. |
| C54 | Peak finder: every window maximum is reported | Peak | partial | Refuted in two dimensions by a concrete histogram (duplicate entries in the window heap hide a peak); on a line it holds for all cells but the first, which is never tested. |
| C55 | Box registration: nearest surface point | Box | proved | any dimension >= 1, exact reals; rounding and NaN not modelled. |
| C56 | Hough plane: parameters of a cell | Hough | partial | false: the int overload forgets rhoMin; on every default initialised detector with two or more bins the overloads differ on every cell (C56_params_differ); they agree exactly when rhoMin = 0. |
| C57 | Hough plane: vote binning | Hough | partial | false: truncation toward zero puts the points of the bin below into the first bin; exact for the other bins; all votes stay inside the accumulator (C121). |
| C58 | Correspondence graph: edges | Assoc | proved | Exact adjacency, node numbering, symmetry, irreflexivity for any conforming std::sort; real distances. |
| C59 | Correspondence graph: output | Assoc | partial | False of the code: the output vector is never written, and on any non-empty problem the search erases the element its range-for loop refers to (undefined) unless the process-wide counter is already at 199. C59_associate_exact is the exact behaviour of associate; C59_never_written holds for every call. |
| C60 | Geographic conversions invert | Gis | proved | exact arithmetic, both directions. Algebra over R. |
| C61 | Plane orientation predicate | Geometry | proved | exact arithmetic. |
| C62 | Plane aligner: the computed frame | Aligner | proved | exact arithmetic; constant height -/d///n/. Algebra over R. |
| C63 | Directory listing | Io | proved | directories whose entries can all be queried. Sorted sequences of names. |
| C64 | Index intervals: position arithmetic does not overflow | Interval | partial | False for RasterIndexer::getPos (refuted with a witness); proved for StaticRasterIndexer::getPos, and for RasterIndexer when min + cell count stays in int. |
| C65 | Index intervals: iteration over an empty interval with negative extents visits nothing | Interval | partial | False of the code: an interval with extents (-1,-1) is empty() but iteration visits one cell. Non-negative extents: C17. |
| C66 | Index intervals: size and emptiness without restrictions | Interval | partial | False of the code in both directions (negative extents; wrap-around of the product); size() = product mod 2^64 proved exactly. |
| C67 | Index intervals: constructors describe the requested box | Interval | proved | Mixed radix induction over the dimensions. |
| C68 | Grid: re-initialisation gives a clean grid | Interval | partial | False of the code: initBounds only resizes the storage, old values show through; exact value of every cell proved, and the claim for a newly constructed grid. |
| C69 | FloatTraits: dividePow2 is defined for every number | Bits | partial | False: negative shift when the exponent exceeds exp2 by more than the mantissa width; exact definedness and result proved. |
| C70 | Morton distance of floating point points is an ultrametric | MortonFloat | partial | Ultrametric and cube characterisation for singles that are +0 or at least 2^-103; refuted (undefined) for distant negative singles and for doubles. |
| C71 | Power-of-two interval of two floating point numbers | MortonFloat | partial | Proved for normal singles of one sign in increasing magnitude; undefined in every other order. |
| C72 | Morton split of two floating point points | MortonFloat | partial | Refuted: undefined whenever some coordinate of the first point has magnitude not below that of the second. |
| C73 | Morton tree over integers: sort and lookup | MortonTree | proved | Fewer than 2^31 items. Sorted permutation of the items, halving search. |
| C74 | Morton tree: level of an interval | MortonTree | proved | Fewer than 2^31 items. Sorted permutation of the items, halving search. |
| C75 | Morton tree: insertion numbers | MortonTree | proved | Integer points and plain single precision points; fewer than 2^31 items. |
| C76 | Parameters: command line parsing on ASCII arguments | Param | proved | Exact on ASCII; undefined behaviour characterised otherwise. |
| C77 | Parameters: exact condition of the round trip | Param | proved | Both directions. Induction over characters and lines. |
| C78 | Profiler: what average and variance report | Profiler | proved | Closed form of the reported numbers. Induction over the samples. |
| C79 | Peak finder: safe in every dimension | Peak | proved | Sliding window invariant on top of the interval and heap theorems. |
| C80 | Peak finder: reported cells are window maxima | Peak | partial | false from two dimensions on (3x13 witness, and a 2x3x3 one); proved on a line. |
| C81 | Peak finder with a zero window | Peak | proved | Sliding window invariant on top of the interval and heap theorems. |
| C82 | Truncated least squares: defined for every input | Tls | partial | Refuted: empty input dereferences end(); every non-empty input with positive ranges divides 0 by 0 at the last end point (a NaN that min_element ignores in exact arithmetic). Size mismatch stops the program. |
| C83 | Truncated least squares: maximum consensus | Tls | partial | Refuted with two overlapping measurements. Sweep invariant over the sorted end points. |
| C84 | Truncated least squares: estimate stays among the measurements | Tls | proved | Sweep invariant over the sorted end points. |
| C85 | Fourier series bounds: exact composition | Functions | proved | Exact real arithmetic. Trigonometric identities and analysis over R. |
| C86 | Fourier evaluation lies within the Fourier bounds | Functions | partial | Refuted: the two functions use different series (k t versus 2 k t). C86_same_series_partial: it holds when evaluateFourier is called with twice the angle. |
| C87 | Angle normalisation with the library's period | Functions | proved | Exact real arithmetic. Trigonometric identities and analysis over R. |
| C88 | fastCosSin accuracy | Functions | proved | Exact real arithmetic; the error bound is checked with rational interval arithmetic over the Taylor bounds of the sine. |
| C89 | fastAtan accuracy | Functions | proved | Exact real arithmetic; mean value theorem over 512 pieces with rational interval arithmetic. |
| C90 | fastAtan2 accuracy | Functions | proved | Exact real arithmetic; 0/0 at the origin is outside. Trigonometric identities and analysis over R. |
| C91 | PNEBI values decrease with the order | Pnebi | partial | Refuted at n = 2, x = 1000, where order 1 comes out below order 2: the downward recurrence starts too low for large x. Holds for /x/ <= 2k (C91_decreasing_partial). |
| C92 | PNEBI of order 0 near the origin | Pnebi | proved | Exact real arithmetic; the branch /x/ >= 3.75 is shown positive and even only. |
| C93 | PNEBI table construction | Pnebi | proved | Exact real arithmetic. Loop invariants of the downward recurrence; interpolation lemma. |
| C94 | PNEBI table construction is defined for every order | Pnebi | partial | Refuted for n = 0, where y[1] is read past the row; C94_init_defined_partial for n >= 1. |
| C95 | PNEBI table offers the documented orders | Pnebi | partial | Refuted: the assertion rejects k = n. C95_orders_partial: exactly the orders below n are answered; the all-order lookup returns order n too (C50). |
| C96 | ccw is the signed area | Geometry | partial | refuted: the value is twice the signed area (C96_area_partial). |
| C97 | Angle intervals with the library's period | Geometry | proved | period K_2PI as a float. |
| C98 | Angle intervals with true turns | Geometry | partial | refuted: the period K_2PI is larger than 2 pi, so angles exactly one turn away are misjudged; without wrap-around it holds. |
| C99 | Angular cone between two vectors is open | Geometry | partial | refuted for cones wider than half a turn, which contain their sides; holds up to half a turn; exact behaviour in C100. |
| C100 | Angular cone between two vectors: exact behaviour | Geometry | proved |  |
| C101 | Pose to isometry | Geometry | proved |  |
| C102 | Local coordinates tell points apart | Gis | partial | refuted: meterPerDegLon is called with the longitude and is 0 at 90 degrees; the latitude is always recovered. |
| C103 | Local coordinates do not depend on the choice of the prime meridian | Gis | partial | refuted for the same reason; holds for whole turns. Algebra over R. |
| C104 | Local axes point east and north | Gis | partial | refuted: east and west are exchanged about longitude 180; north is right for every origin. |
| C105 | ECEF coordinates | Gis | proved | exact arithmetic. Algebra over R. |
| C106 | WGS84 constants are consistent | Gis | partial | refuted: the constant is the second eccentricity; the other relations hold. |
| C107 | Plane coefficients are oriented | Aligner | partial | refuted for planes through the origin; non-negative, and positive for the other planes. |
| C108 | Aligning does not depend on the scale of the coefficients | Aligner | partial | refuted: the tolerance is not scaled; the rotation does not depend on the scale. |
| C109 | Centre of the aligned frame | Aligner | proved | exact arithmetic. Algebra over R. |
| C110 | Points far from the plane do not influence the frame | Aligner | partial | refuted for non-unit normals; holds for unit normals. Algebra over R. |
| C111 | Directory listing does not depend on the enumeration order | Io | proved | Sorted sequences of names. |
| C112 | A failed directory listing leaves the vector alone | Io | partial | refuted: files met before an entry whose status query throws stay appended, unsorted; a path that is no directory leaves the vector alone. |
| C113 | Box registration: initial axes follow the sides | Box | proved | std::sort is any function that sorts the indices by side. Linear algebra over R; any conforming decomposition. |
| C114 | Box registration: initial estimate defined | Box | partial | refuted for a default constructed box (perm_ has no value); proved after setDimension. |
| C115 | Box registration: initial estimate is a rotation | Box | partial | refuted: for every orthonormal pair of eigenvectors some box gets determinant -1; proved: the columns are a permutation of the eigenvectors. |
| C116 | Box registration: step gives a rigid motion aligning centroids | Box | proved | JacobiSVD is any function returning a decomposition (existence proved in 2D and 3D). |
| C117 | Box registration: planar step is a least squares optimum | Box | proved | exact reals. Linear algebra over R; any conforming decomposition. |
| C118 | Box registration: planar step never increases the error | Box | proved | exact reals; the starting transform is a rotation. Linear algebra over R; any conforming decomposition. |
| C119 | Box registration: spatial step never increases the error | Box | partial | refuted with a box and a cloud for every conforming decomposition (the sign is applied to the second singular vector); proved when the cross covariance has a positive determinant. |
| C120 | Box registration: finite result | Box | partial | refuted for an empty cloud (0/0), in 2D and in 3D; proved for non-empty clouds. |
| C121 | Hough planes: exact votes | Hough | proved | Counting over points and directions; peak finder theorems. |
| C122 | Hough planes: when insert is defined | Hough | proved | Counting over points and directions; peak finder theorems. |
| C123 | Hough planes: insert works for every accumulator size | Hough | partial | false: with one to seven longitudes insert divides by zero (phiNum/8); holds from eight on when the offsets fit an int. |
| C124 | Hough planes: inserting in pieces | Hough | proved | Counting over points and directions; peak finder theorems. |
| C125 | Hough planes: the two insert overloads agree | Hough | partial | false: the vector overload adds to earlier votes, the iterator overload resets first. |
| C126 | Hough planes: normals | Hough | proved | Counting over points and directions; peak finder theorems. |
| C127 | Hough planes: documented default ranges | Hough | partial | false: theta starts at 0 with step pi/(2 thetaNum), rho at -(rhoNum/2) rhoRes; only phi is as documented. |
| C128 | Hough planes: a point is near the plane it votes for | Hough | proved | Counting over points and directions; peak finder theorems. |
| C129 | Hough planes: cell parameters are the bin centre | Hough | partial | false: a voting point may be almost rhoRes away; within rhoRes always (C128). |
| C130 | Hough planes: findPlanes result | Hough | proved | Counting over points and directions; peak finder theorems. |
| C131 | Hough planes: the strongest direction is reported | Hough | partial | false: the first direction (0,0) is never reported (C130), even when it holds all votes. |
| C132 | Hough planes: parameters of the found planes | Hough | proved | Counting over points and directions; peak finder theorems. |
| C133 | Hough planes: init starts afresh | Hough | proved | Counting over points and directions; peak finder theorems. |
| C134 | Hough planes: windows given in physical units | Hough | proved | Counting over points and directions; peak finder theorems. |
| C135 | Hough planes: out-of-range indices are rejected | Hough | partial | false: findParallelPlanes has no range check and reads outside the storage; the getters do check. |
| C136 | Hough planes: empty detector | Hough | partial | false: the peak finder stops the program on an empty domain. Counting over points and directions; peak finder theorems. |
| C137 | Hough lines: votes are recorded | Hough | partial | false: the body of HoughLineDetector::insert is empty; all counters stay zero (C137_line_never_votes). |
| C138 | Hough lines: lines are found | Hough | partial | false: findLines never adds anything (C138_no_lines). Counting over points and directions; peak finder theorems. |
| C139 | Correspondence graph: associations | Assoc | partial | False: undefined for every non-empty problem while the counter is below 199, and empty whenever it returns (both proved for all inputs). |
| C140 | Correspondence graph: replacing the source set | Assoc | partial | False: distances of the first set stay in the vector; a matching stale pair beyond the new size stops the program (proved for all such inputs). One insertion on a fresh object is C58. |
| C141 | Correspondence graph: repeated associate | Assoc | partial | False: nodes are appended, the second graph has twice as many nodes (proved for all problems whose first call returns). |
| C142 | Correspondence graph: independence of history | Assoc | partial | False: the static iteration counter decides between undefined behaviour and an early return; the exact dependence is C59_associate_exact. |
| C143 | Morton tree: range insertion leaves the caller's items alone | MortonTree | partial | refuted with resetId (the source items are renumbered through the iterators); exact theorem for both flags. |
| C144 | Morton tree: box around a centre | MortonTree | partial | refuted: unsigned and narrow corners wrap, int/long overflow is undefined; equality with the two-corner search proved whenever the corners are representable. |
| C145 | Parameters: reading a file | Param | proved | Induction over characters and lines. |
| C146 | Min-max heap as a priority queue, duplicates allowed | MinMaxHeap | partial | false (witness of fourteen calls on two values); holds when every element but the last in order has at most two copies at each popTop. |
| C147 | Peak finder on a line with ties: reported cells | Peak | partial | false (22-cell witness); holds when only the worst value occurs more than twice on the line. |
| C148 | Peak finder on a line with ties: missed cells | Peak | partial | false (5-cell witness); holds when only the worst value occurs more than twice and no earlier cell outside the window ties with the cell. |
| C149 | Peak finder on a line with rare ties | Peak | proved | Sliding window invariant on top of the interval and heap theorems. |
| C150 | The overall best cell of a histogram is reported, and first, in any dimension | Peak | partial | False: in four dimensions the window can drift out of the domain and the best cell is lost (C150_best_cell_refuted, 3x3x3x2 with half-widths 1). C150_best_cell_partial proves it in any dimension for extents where successive cells of the walk are neighbours; C151 covers all boxes of up to three dimensions. |
| C151 | In up to three dimensions the overall best cell is reported first, whatever the other values | Peak | proved | Sliding window invariant on top of the interval and heap theorems. |
| C152 | The direction with the largest spectrum is the first one reported | Hough | proved | Counting over points and directions; peak finder theorems. |
| C153 | The bin with the most votes along a direction is the first plane reported | Hough | proved | Counting over points and directions; peak finder theorems. |
| C154 | findPlanes reports the strongest bin of the strongest direction | Hough | proved | Counting over points and directions; peak finder theorems. |
| C155 | Normals and plane parameters correspond one to one, in order, to the reported indices | Hough | proved | Counting over points and directions; peak finder theorems. |
| C156 | findPlanes returns exactly the union of findParallelPlanes over findSpectrumMax | Hough | proved | Counting over points and directions; peak finder theorems. |
| C157 | findParallelPlanes finds the local maxima of the votes when votes seldom tie | Hough | proved | Counting over points and directions; peak finder theorems. |
| C158 | PNEBI of order 0 for large arguments | Pnebi | proved | Exact real arithmetic; comparison through the differential equation of I0 with a degree 16 polynomial. |
| C159 | PNEBI of order 0 decreases | Pnebi | partial | False: the value jumps up by 9e-9 at /x/ = 3.75. Proved: strictly decreasing on each side, and never more than 1e-8 above an earlier value. |
| C160 | PNEBI table keeps its tolerance | Pnebi | partial | False: for tol < 2e-6 the second node lies below 1e-6 where order 0 is the constant 2, the slope estimate is 0 and the third node is about 1e300 away, so every lookup is about 2 (C160_small_tolerance). Past the last node the last value is kept. C160_tolerance_partial: tol >= 2e-6 and arguments in the range of the table. |
| C161 | PNEBI table accuracy for tolerances from 2e-6 | Pnebi | proved | Exact arithmetic. Convexity of both branches, I_1 / I_0 bounded by a rational function through its Riccati equation, invariant of the node placement. |
| C162 | PNEBI orders against the Bessel functions | Pnebi | proved | Exact arithmetic. Casoratian of the computed and the true solution of the recurrence. |
| C163 | Metres per degree on WGS84 | Gis | proved | Exact arithmetic; the lengths are speeds of the points of the ellipsoid, derivatives taken with Coquelicot. |
| C164 | Local coordinates are metres near the origin | Gis | partial | False for x: the metres per degree are evaluated at the longitude of the origin, at latitude 60 and longitude 0 a degree east is about 55 km too long. C164_metres_partial: y for every origin, x if the longitude of the origin equals its latitude. |
| C165 | Plane aligner: the third axis looks toward the origin | Aligner | proved | Exact arithmetic. Algebra over R. |
| C166 | Plane aligner moves the plane to height 0 | Aligner | partial | False: the plane is moved to the height minus its distance from the origin, since the centre is projected on the plane through the origin. C166_zero_partial: the height is 0 exactly if the plane passes through the origin, and constant on the plane. |
| C167 | Plane aligner: direction of the first axis | Aligner | proved | Exact arithmetic; ties go to the z axis. Algebra over R. |
| C168 | Reduced angles stay in their range in double arithmetic | Double | partial | False in double arithmetic: C168_range_refuted and C168_twice_refuted give doubles with a negative result, with the period itself as result, and with two different results for one and two calls. C168_range_partial bounds the excess. |
| C169 | Reduced angles are congruent in double arithmetic | Double | proved | Double arithmetic modelled with Flocq; overflow, NaN and infinities not modelled. |
| C170 | fastCosSin accuracy in double arithmetic | Double | proved | Double arithmetic modelled with Flocq. Rounding to nearest even (Flocq) after every operation; error propagation, exact differences, values next to the jumps of floor. |
| C171 | fastCosSin is bounded by 1 in double arithmetic | Double | partial | False beyond 2^51: C171_bounded_refuted gives a double near 2^55 with a sine above 20. C171_bounded_partial proves the bound for /x/ <= 2^51. |
| C172 | fastAtan and fastAtan2 accuracy in double arithmetic | Double | proved | Double arithmetic modelled with Flocq; the sign of a zero ordinate is not modelled. |
| C173 | fastCosSin is bounded by 1 up to 2^51 | Double | proved | The part of C171 that holds. Rounding to nearest even (Flocq) after every operation; error propagation, exact differences, values next to the jumps of floor. |
| C174 | fastAtanf and fastAtan2f accuracy in single precision | Single | proved | Single precision modelled with Flocq; the sign of a zero ordinate is not modelled. |
| C175 | fastAtan2f stays between -pi and pi | Single | partial | False: fastAtan2f(-1, 0) is the float above pi (C175_range_refuted). C175_range_partial: never beyond that float. |
| C176 | fastCosSinf accuracy in single precision | Single | proved | Single precision modelled with Flocq, for both overloads of floor. |
| C177 | A direction survives the fast angle functions | Single | proved | Composition of the two functions, in double and in single precision. |
| C178 | ccw on floats tells left turns from right turns | GeoFloat | partial | False: with floats ccw is 33554432 for (2^24, 2^24), (-2, -1), (-1, 0), which turn right. Proved: right up to zero results when the differences of the coordinates are floats; antisymmetric in the last two points. |
| C179 | ccw and the cone test are exact on grids | GeoFloat | proved | Overflow is not modelled (the results are below 2^24 steps squared). |
| C180 | Rounding error of ccw | GeoFloat | proved | GeoFloatModel.v repeats the angle, cone and ccw functions of base_geometry2.cpp with every operation rounded to single precision. The angle functions are related to whole turns of 2 pi with an error bound; ccw is bounded against the real determinant and exact on grids because all intermediate integers stay below 2^24. |
| C181 | normalizeAngle2Pi on floats stays below 2 pi | GeoFloat | partial | False: the result for -2^-60 is the float nearest to 2 pi, which is larger. Proved: within 6 * 2^-24 * (/x/ + 8) of [0, 2 pi]. |
| C182 | Rounding error of normalizeAngle2Pi | GeoFloat | proved | GeoFloatModel.v repeats the angle, cone and ccw functions of base_geometry2.cpp with every operation rounded to single precision. The angle functions are related to whole turns of 2 pi with an error bound; ccw is bounded against the real determinant and exact on grids because all intermediate integers stay below 2^24. |
| C183 | insideAngleInterval on floats, away from the ends | GeoFloat | proved | GeoFloatModel.v repeats the angle, cone and ccw functions of base_geometry2.cpp with every operation rounded to single precision. The angle functions are related to whole turns of 2 pi with an error bound; ccw is bounded against the real determinant and exact on grids because all intermediate integers stay below 2^24. |
| C184 | State of a new Hough detector | Hough | proved | Counting over points and directions; peak finder theorems. |
| C185 | Defaults of the correspondence graph | Assoc | proved | List membership over the sorted pairs. |
| C186 | Ids of very large Morton trees | MortonTree | partial | False from item number 2^31 on: the size is converted to int. Proved: the id is the int that differs from k by a multiple of 2^32 (single insertions). |
| C187 | A box without sides is a point | Box | proved | Linear algebra over R; any conforming decomposition. |
| C188 | VectorArray entries | Vector | proved | VectorModel.v keeps the entries in a list and the operands as references that may name the object itself or one of its entries; the loops run over the current contents. Proved by an invariant: after d turns the first d entries are new and the others old. |
| C189 | VectorArray += and *= with a vector | Vector | proved | VectorModel.v keeps the entries in a list and the operands as references that may name the object itself or one of its entries; the loops run over the current contents. Proved by an invariant: after d turns the first d entries are new and the others old. |
| C190 | VectorArray *= with a scalar | Vector | partial | False when s is an entry of v other than the last: [2, 5] *= its first entry gives [4, 20]. Proved: right for every other scalar; otherwise the entries behind it are multiplied by its square. |
| C191 | Local positions survive conversion to degrees on floats | GisFloat | partial | False: 3/16 m north of latitude 45 come back as 0, as floats are 0.42 m apart there. Proved: within 1.3 m in x and 0.65 m in y up to one degree away. |
| C192 | Degrees survive conversion to local coordinates on floats | GisFloat | proved | GisFloatModel.v repeats gis.cpp with every operation rounded as C++ prescribes; sin and cos of the C library are parameters of which only an accuracy of 2^-24 and the values at 0 are assumed (stated in each theorem). Forward error analysis with the lemmas of Double and Single; the refutations follow single roundings. |
| C193 | Rounding error of the lengths of a degree | GisFloat | proved | GisFloatModel.v repeats gis.cpp with every operation rounded as C++ prescribes; sin and cos of the C library are parameters of which only an accuracy of 2^-24 and the values at 0 are assumed (stated in each theorem). Forward error analysis with the lemmas of Double and Single; the refutations follow single roundings. |
| C194 | Earth-centred coordinates on floats, 10 cm | GisFloat | partial | False: 3/16 m of altitude at the equator are lost. Proved: within 5 m. |
| C195 | Earth-centred coordinates on floats, 5 m | GisFloat | proved | GisFloatModel.v repeats gis.cpp with every operation rounded as C++ prescribes; sin and cos of the C library are parameters of which only an accuracy of 2^-24 and the values at 0 are assumed (stated in each theorem). Forward error analysis with the lemmas of Double and Single; the refutations follow single roundings. |
| C196 | Rounding error of the conversion to the local frame | GisFloat | proved | bound against the real-valued formula; rounding model of SingleModel.v. |
| C197 | The end of an arc on floats | GeoFloat | proved | both readings of the call of floor. GeoFloatModel.v repeats the angle, cone and ccw functions of base_geometry2.cpp with every operation rounded to single precision. The angle functions are related to whole turns of 2 pi with an error bound; ccw is bounded against the real determinant and exact on grids because all intermediate integers stay below 2^24. |
| C198 | Hough planes on floats: a plane collects the points on it | HoughFloat | partial | False: with bins of the float 1/7 the plane of bin 7 is at distance 1, points at distance 1 vote for bin 6. Proved: the vote goes to the bin or to the one below. |
| C199 | Hough planes on floats: votes away from the borders | HoughFloat | proved | rounding model of SingleModel.v; both readings of the calls of sin and cos. |
| C200 | Hough planes on floats: distance of a voting point | HoughFloat | proved | rounding model of SingleModel.v; both readings of the calls of sin and cos. |
| C201 | Hough planes on floats: table of normals | HoughFloat | proved | rounding model of SingleModel.v; both readings of the calls of sin and cos. |
| C202 | Hough planes on floats: bins keep the order | HoughFloat | proved | rounding model of SingleModel.v; both readings of the calls of sin and cos. |
| C203 | TLS in floating point: defined, least cost, flags | TlsFloat | proved | float and double; every order std::sort may leave equal keys in. |
| C204 | TLS in floating point: estimate within the data | TlsFloat | partial | refuted: double 1000000004, 1000000005, 1000000010 with ranges 3.9 give 268435456 (the running sums do not return to 0), float 10003, 10001 give 52224; partial: data on a grid with equal power-of-two ranges. |
| C205 | TLS in floating point: unanimous measurements | TlsFloat | partial | refuted: double 100000028 twice with ranges 0.3, 0.6 gives 67108864, float 10005 three times gives -4096; partial: data on a grid with equal power-of-two ranges. |
| C206 | TLS in floating point: finite estimate | TlsFloat | partial | refuted: the value 0 with range 1e200 (float 1e20) gives NaN; partial: data on a grid with equal power-of-two ranges. |
| C207 | TLS in floating point: exact on a grid | TlsFloat | proved | float and double. the function over any arithmetic, instantiated with the IEEE 754 float and double of Coq.Floats.SpecFloat, with infinities, NaN and signed zeros, and with any result std::sort may give (TlsFloatModel.v, TlsFloatSpec.v); the operations are related to rounded real arithmetic through Flocq (IeeeProofs.v); on a grid every sum is exact and the two ends of an interval cancel (TlsGridProofs.v); one measurement by error propagation (TlsOneProofs.v); counterexamples computed in the model for a sort and carried over to every sort (TlsCounterProofs.v) |
| C208 | TLS in floating point: one measurement is returned | TlsFloat | partial | refuted: double 5 with range 3, float 25 with range 3; the error is bounded by C209, exact cases are C207. |
| C209 | TLS in floating point: one measurement, relative error | TlsFloat | proved | float and double. the function over any arithmetic, instantiated with the IEEE 754 float and double of Coq.Floats.SpecFloat, with infinities, NaN and signed zeros, and with any result std::sort may give (TlsFloatModel.v, TlsFloatSpec.v); the operations are related to rounded real arithmetic through Flocq (IeeeProofs.v); on a grid every sum is exact and the two ends of an interval cancel (TlsGridProofs.v); one measurement by error propagation (TlsOneProofs.v); counterexamples computed in the model for a sort and carried over to every sort (TlsCounterProofs.v) |
| C210 | TLS in floating point: near-optimal on a grid | TlsFloat | proved | float and double; n and V rounded up to powers of two (2^L and 2^(m+e)). |
| C211 | Index intervals: no operation overflows | IntervalChk | partial | False: inside, max and last add min and extent, which overflows for a box whose last cell is the largest int, and intersect overflows for boxes far apart. The exact overflow condition of every operation is proved. |
| C212 | Index intervals: no operation overflows far from the limits | IntervalChk | proved | the interval operations and detect once more with every int operation checked (IntervalChkModel.v); exact overflow conditions coordinate by coordinate (IntervalChkProofs.v); invariant of the walk bounding the distance between window and cell (PeakChkProofs.v) |
| C213 | Peak finder: when int arithmetic suffices | IntervalChk | proved | the interval operations and detect once more with every int operation checked (IntervalChkModel.v); exact overflow conditions coordinate by coordinate (IntervalChkProofs.v); invariant of the walk bounding the distance between window and cell (PeakChkProofs.v) |
| C214 | Peak finder: int arithmetic suffices for domains of moderate size | IntervalChk | proved | the interval operations and detect once more with every int operation checked (IntervalChkModel.v); exact overflow conditions coordinate by coordinate (IntervalChkProofs.v); invariant of the walk bounding the distance between window and cell (PeakChkProofs.v) |
| C215 | Peak finder: an empty domain is refused | IntervalChk | partial | Refuted: with two negative extents (setDomain(imin, imax) with imax < imin - 1 in two coordinates) size() is positive, cells outside the domain are visited and detect returns normally. Exact parts: a zero extent always stops with the assertion; a negative number of cells (at least -2^31) is undefined behaviour. |
| C216 | Hough detectors: when the searches stay within int | HoughChk | proved | Exact condition, for the plane searches and for findLines (which finds nothing, C138). |
| C217 | Hough plane detector: no overflow with the default windows | HoughChk | proved | One insertion after construction; windows of one cell (C184). |
| C218 | DisjointSet: ids are exact below 2^31 elements | DisjointInt | proved | int model of every operation, simulated by the model of C01-C07 on all legal histories below 2^31 elements. |
| C219 | DisjointSet: any number of elements that fits in memory | DisjointInt | partial | refuted: with 2^31 elements nodes_.size() becomes -2^31 as an int, so every find is refused, every join silently does nothing, size() reads out of bounds and parents() overflows; proved for every state of 2^31 nodes. |
| C220 | LabelSet: the printed text determines the set | LabelPrint | proved | text model of print with the decimal numerals of the standard library; read back by an independent reader. |
| C221 | Morton order of floats: NaN coordinates | MortonNan | partial | refuted: a NaN coordinate of the first point against a finite coordinate of the same sign makes xorFloat shift by a negative count (proved for all points); in the opposite order the comparison is false; without NaN and infinities the comparison is the one of C32. |
| C222 | Profiler: the average lies between minimum and maximum | ProfilerFloat | partial | refuted: after 1 and 2^-60 the average is 0, below both, and the accumulated squares are negative (already with ordinary times, such as 19.6 then 1.7, the average falls below the minimum); proved: it leaves the range by at most 3 * 2^-53 times the maximum. |
| C223 | Profiler: minimum, maximum, count and average in double arithmetic | ProfilerFloat | proved | update in double arithmetic; invariant over the samples by monotonicity of rounding and the relative error of sums. |
| C224 | Correspondence graph on floats: links join compatible correspondences | AssocFloat | proved | Window bounds rounded to float; soundness in real arithmetic. |
| C225 | Correspondence graph on floats: compatible correspondences are linked | AssocFloat | partial | Refuted with the default tolerance: two points at distance 2^21 do not match themselves, since the window bounds round to the distance. Linked whenever the difference is below the tolerance by the error of one rounding (partial). |
| C226 | Correspondence graph on floats: range of the default tolerance | AssocFloat | proved | Both halves proved on the float model. the graph construction with the window bounds rounded to float (AssocFloatModel.v); the test on two distances is sound by monotonicity of rounding, complete up to one rounding error, and empty when the tolerance is below half the spacing of floats (AssocFloatProofs.v) |
| C227 | Correspondence graph on floats: exchange of source and destination | AssocFloat | partial | Refuted: distances 2^24 and 2^24-1 with tolerance 7/4 link in one direction only. Holds outside the band of one rounding error (partial) and in exact arithmetic (exact). |
| C228 | evaluateFourier: rounding error of the series | FourierFloat | proved | Euclidean bound on the rotation recurrence, then on the sum. |
| C229 | ParamMap: integers survive set, write and read | ParamInt | proved | int and unsigned, 32 bits; operator<< and lexical_cast written from their specification. |
| C230 | ParamMap: negative numbers on the command line | ParamInt | proved | operator<< and lexical_cast of int and unsigned as loops over digits (ParamIntModel.v); numerals as an inductive relation (ParamIntSpec.v); the digit loop with its multiplier and overflow flag by induction on the text, then the generic theorems of ParamProofs.v (ParamIntProofs.v) |
| C231 | ParamMap: which texts getParam<int> accepts | ParamInt | proved | operator<< and lexical_cast of int and unsigned as loops over digits (ParamIntModel.v); numerals as an inductive relation (ParamIntSpec.v); the digit loop with its multiplier and overflow flag by induction on the text, then the generic theorems of ParamProofs.v (ParamIntProofs.v) |
| C232 | ParamMap: getParam<unsigned> rejects texts that denote no unsigned | ParamInt | partial | False: a minus sign is accepted and the value wraps modulo 2^32 (C232_unsigned_text_refuted); true for texts denoting nonnegative numbers. |
| C233 | ParamMap: what getParam<unsigned> does with a text | ParamInt | proved | operator<< and lexical_cast of int and unsigned as loops over digits (ParamIntModel.v); numerals as an inductive relation (ParamIntSpec.v); the digit loop with its multiplier and overflow flag by induction on the text, then the generic theorems of ParamProofs.v (ParamIntProofs.v) |
| C234 | ParamMap: lists of integers | ParamList | proved | the containers of ParamModel.v with the conversion of ParamIntModel.v and the default delimiters (ParamListModel.v); texts of lists (ParamListSpec.v); induction over the elements (ParamListProofs.v) |
| C235 | ParamMap: blanks in lists are ignored | ParamList | partial | False: an element with a leading blank ends the list silently (C235_blanks_refuted); the elements before it are read (C235_blanks_partial). |
| C236 | PnebiLUT::eval: samples are reproduced exactly in double arithmetic | LutFloat | proved | PnebiLUT::eval in double arithmetic (LutFloatModel.v); relative error of differences of doubles, weight in [0, 1], then the three roundings of the interpolation (LutFloatProofs.v) |
| C237 | PnebiLUT::eval: the interpolated value stays between its samples | LutFloat | partial | False: with both samples equal to 1 - 7*2^-53 the value at 3/8 of the way is larger (C237_between_refuted); it leaves the interval by four units of roundoff at most (C237_between_partial). |
| C238 | PnebiLUT::eval: rounding error of the interpolation | LutFloat | proved | PnebiLUT::eval in double arithmetic (LutFloatModel.v); relative error of differences of doubles, weight in [0, 1], then the three roundings of the interpolation (LutFloatProofs.v) |
| C239 | ParamMap: bool parameters | ParamBool | proved | text conversion of bool written from its specification (operator<< without boolalpha, boost::lexical_cast<bool>). |
| C240 | ParamMap: the words true and false | ParamBool | partial | refuted: the words are no numerals for lexical_cast<bool>; the variable keeps its value while the call returns true; exact behaviour in C240_words_partial. |
| C241 | Box registration: initial estimate takes the principal axes of the cloud | BoxMoment | proved | exact arithmetic; sort and eigen solver are parameters with their specification. |
| C242 | Box registration: nearest point in floating point | BoxFloat | proved | half sides representable (every side except odd multiples of the smallest subnormal); no overflow. |
| C243 | Box registration: the associated point is exactly nearest in floating point | BoxFloat | partial | refuted: two distances inside the box may round to the same double, the first side is kept; exact outside the box (partial), bounded inside (C242). |
| C244 | Hough detectors: windows cover the given extents in float arithmetic | HoughWin | partial | refuted: the quotient may round down to a whole number of bins; covered up to rounding and monotone in C244_covers_partial. |
| C245 | Hough detectors: windows of whole bins in float arithmetic | HoughWin | proved | float arithmetic without overflow. the window of setPeakWindow(Scalar...) as a rounded quotient, ceil and conversion (HoughWinModel.v, HoughWinSpec.v); relative error of the quotient and monotonicity of rounding (HoughWinProofs.v) |
| C246 | ScopedTimer measures its scope | Scope | proved | exact arithmetic; the clock advances during work only. programs of work, timed blocks and uses of the macro, executed with a clock (ScopeModel.v); durations and expected measurements by structure of the program (ScopeSpec.v); induction on programs, then the theorems of ProfilerProofs.v (ScopeProofs.v) |
| C247 | ROFL_COMMON_PROFILER_SCOPED_TIMER_HERE times the scope it stands in | Scope | partial | refuted: the macro constructs an unnamed temporary, destroyed at the end of its own statement, so none of the block is measured; exact behaviour in C247_here_partial. |
| C248 | ROFL_VARn writes each argument after its own name | Macro | partial | False for ROFL_VAR7, which writes the value of the seventh argument under the name of the sixth (C248_var_refuted); proved for one to six arguments, and what ROFL_VAR7 writes is stated exactly. |
| C249 | ROFL_ASSERT and ROFL_ASSERT_VARn | Macro | proved | the operands of << of every macro as a list run on arguments with side effects (MacroModel.v); arguments evaluated once in order and their report (MacroSpec.v); cases on the number of arguments (MacroProofs.v) |
| C250 | Stamped strings sort by time | Stamp | proved | the string as bytes of the fields of a broken-down time (StampModel.v); order of days and times (StampSpec.v); comparison of strings field by field (StampProofs.v) |
| C251 | Stamped strings are distinct | Stamp | partial | False: two calls within one second give the same string (C251_distinct_refuted); proved: the strings are equal exactly when the local times shown are. |

## Which code is modelled

| Source | Modelled | Not modelled |
|---|---|---|
| common disjoint_set.h/.cpp | all operations, int ids given by callers; a second time with int node numbers, ranks and counts (DisjointIntModel.v) | console text |
| common label_set.h/.cpp | constructors, insert/remove, union/intersection/difference, comparison, print as text (LabelPrintModel.v) | stream state other than the default; operator<< is defined in the header without inline (166-169), so two translation units that include it do not link |
| common min_max_heap.h | all operations, index arithmetic as written | size_t overflow of indices; heaps of 2^31 items or more; print functions |
| common interval_indices.h, grid.h | indexers, interval operations, iterators, grids with exact integers (IntervalModel.v); getPos and all interval operations with checked int arithmetic (IntervalModel.v, IntervalChkModel.v) | stream output |
| common bit_manip.h/.cpp | nlz, flp2, clp2 of all widths, mantissa/exponent access | printing of bit strings |
| common numeric_traits.h | IntegerTraits of the eight types, FloatTraits (both) | - |
| common morton_sort.h | integer and floating point comparison, distance, intervalPow2, split, on values and bit patterns; the float comparison with NaN patterns and infinities (MortonNanModel.v) | NaN in distance and split; console text |
| common morton_tree.h | insertions (single, range, converting), findItem, findTreeBucket, searchInBox (both), computeLevel | text output (its dereferences are kept); memory exhaustion |
| common param_map.h/.cpp | table, tokens, read from stream and arguments, write, adaptTildeInPaths | opening files; conversions between values and text are parameters (ParamModel.v), except for int, unsigned and bool, whose operator<< and boost::lexical_cast are written from their specification for 32 bits and the C locale (ParamIntModel.v, ParamBoolModel.v) |
| common profiler.h/.cpp | statistics, printed lines, over the rationals (ProfilerModel.v); the statistics of one label in double arithmetic (ProfilerFloatModel.v); lifetime of ScopedTimer objects and the macro of h 26 (ScopeModel.v) | the clock itself (steady, advancing during work only); exceptions and threads; overflow, NaN |
| common functions.h/.cpp | Fourier series, cosine bounds, angle normalisation, fast sine/cosine/arctangent, PNEBI polynomial, recurrence, table | rounding, except for normalize360, normalize180, evaluateFourier (FourierFloatModel.v), PnebiLUT::eval (LutFloatModel.v), fastCosSin, fastAtan and fastAtan2, modelled a second time in double arithmetic (DoubleModel.v), and fastCosSinf, fastAtanf, fastAtan2f, modelled in float arithmetic (SingleModel.v); NaN, infinities, overflow; printLUT |
| common tls_scalar_consensus.h | estimateTranslationTls, over the rationals (TlsModel.v) and in IEEE float and double (TlsFloatModel.v) | printed text; fused multiply-add |
| common peak_finder_d.h | detect with its window and heap, with exact integers (PeakModel.v) and checked int arithmetic (IntervalChkModel.v) | - |
| common io.h/.cpp | getDirectoryFiles; generateStampedString for any clock and std::localtime, years 1000-9999 (StampModel.v) | time zones, locales other than "C"; errors while advancing the directory iterator |
| common vector_array.h | constructor, entries, +=, *= with aliased operands | binary +, -, *, /: they assign a scalar to a vector and do not compile when used; overflow |
| common macros.h | ROFL_ASSERT as `Exit` in the other models; ROFL_VAR1-7, ROFL_ASSERT and ROFL_ASSERT_VAR1-5 with their texts and evaluations (MacroModel.v) | ROFL_MSG, ROFL_ERR; the syntax of the statement around a macro; failing streams |
| geometry base_geometry2.h/.cpp | poses, angle intervals, cones, ccw in real arithmetic (Geometry2Model.v); normalizeAngle2Pi, angle intervals, cones and ccw in float arithmetic (GeoFloatModel.v) | rounding of poseToIsometry2; overflow, contraction to fused operations |
| geometry gis.h/.cpp | all conversions, in real arithmetic (GisModel.v) and in float arithmetic (GisFloatModel.v) | sin and cos of the C library (assumed accurate within 2^-24 in the float model); overflow, quotients by zero |
| geometry box_registration.h/.cpp | boxes, associate, computeTransform in 2D and 3D (BoxModel.v), estimateInitTranform with centroid and covariance in any dimension (BoxMomentModel.v) | rounding, except for associate, modelled a second time in float and double arithmetic (BoxFloatModel.v); SVD and eigen solver internals (parameters with their specification) |
| geometry hough_plane_detector.h/.cpp | init, windows, voting, spectrum, all searches and getters; the searches a second time in checked int arithmetic (HoughChkModel.v) | profiler timer of insert (210); console text; rounding, except for the normals, bins, reported planes (HoughFloatModel.v) and peak windows (HoughWinModel.v), modelled a second time in float arithmetic |
| geometry hough_line_detector.h/.cpp | init, windows, getters, insert, searches; findLines a second time in checked int arithmetic (HoughChkModel.v) | console text |
| geometry correspondence_graph_association.h/.cpp | insertion, graph construction (also in float arithmetic), clique search, association | console text; NaN distances; int overflow |
| geometry types.h | Scalar, vector types as tuples | Vector6 and Vector7 (aliases of 5-vectors, 86-87 and 119-120), boost geometry types: unused by the library |
| pcl point_cloud_plane_aligner.h/.cpp | setPlaneCoeffs, compute, align | PCL's transformPointCloud beyond applying the transform to every point |
| */app | - | test programs are not modelled |

## Trusted base

* The Coq 8.16.1 kernel (`coqc`, rechecked with `coqchk`); no kernel check is switched off, no plugin is used.
* The axioms that `Print Assumptions` lists for each theorem, all from the Coq standard library, listed below. There are no axioms, admitted
  proofs or open parameters of the development itself.
* The reading of /repo into the model: the code is not executed. The models cite the lines they follow and state what they leave out.
* The statements in `XSpec.v` and `XProps.v` as renderings of the English properties.
* Coquelicot (sums of power series, BesselOde.v and BesselLarge.v) is used as a proved library; it contributes no axiom beyond those listed.
* Flocq (rounding of reals to the doubles, DoubleModel.v and its proofs) is used as a proved library; it contributes no axiom beyond those listed.

### Print Assumptions of every property theorem

F = `ClassicalDedekindReals.sig_forall_dec`, N = `ClassicalDedekindReals.sig_not_dec`, E = `FunctionalExtensionality.functional_extensionality_dep`, C = `Classical_Prop.classic`; all from the Coq standard library. "closed" = closed under the global context.

* **AlignerProps.v**
  * EF: `C107_orientation_refuted`
  * EFN: `C62_frame`, `C107_orientation_partial`, `C108_scale_refuted`, `C108_scale_partial`, `C109_center`, `C110_far_refuted`, `C110_far_partial`, `C165_sensor`, `C166_zero_refuted`, `C166_zero_partial`, `C167_x_axis`
* **AssocFloatProps.v**
  * CEFN: `C224_links_compatible`, `C225_compatible_linked_refuted`, `C225_compatible_linked_partial`, `C226_equal_distances`, `C226_large_distances`, `C227_exchange_refuted`, `C227_exchange_partial`
  * EF: `C227_exchange_exact`
* **AssocProps.v**
  * EF: `C58_edges`, `C59_output_refuted`, `C59_associate_exact`, `C59_never_written`, `C139_associations_refuted`, `C139_always_undefined`, `C139_always_empty`, `C140_replace_source_refuted`, `C140_stale_distances_stop`, `C141_repeat_refuted`, `C141_nodes_appended`, `C142_history_refuted`, `C185_defaults`
* **BitsProps.v**
  * closed: `C23_nlz`, `C24_power_of_two`, `C25_float_fields`, `C25_out_of_range`, `C26_log2Mod_refuted`, `C26_log2Mod_partial`, `C26_log2Mod_int64_partial`, `C27_min_refuted`, `C27_min_exact`, `C27_floorPow2_partial`, `C27_ceilPow2_partial`, `C69_dividePow2_refuted`, `C69_dividePow2_exact_partial`
* **BoxFloatProps.v**
  * CEFN: `C242_double`, `C242_float`, `C243_nearest_refuted`, `C243_nearest_partial`
* **BoxMomentProps.v**
  * EF: `C241_principal_axes`, `C241_small_cloud`
* **BoxProps.v**
  * EF: `C55_nearest`, `C113_axes`, `C115_rotation_refuted`, `C115_mirror_exact`, `C115_rotation_partial`, `C116_step2`, `C116_step3`, `C117_optimal2`, `C118_monotone2`, `C119_monotone3_refuted`, `C119_monotone3_partial`, `C120_finite_refuted`, `C120_finite_partial`, `C120_finite3_partial`, `C120_finite3_refuted`, `C187_default_box`
  * F: `C114_defined_refuted`
  * closed: `C114_defined_partial`
* **DisjointIntProps.v**
  * closed: `C218_same_answers`, `C218_connectivity`, `C219_any_number_refuted`, `C219_full_partial`
* **DisjointSetProps.v**
  * closed: `C01_find_decides_connectivity`, `C01_default_constructor`, `C02_size_counts_class`, `C02_setNum_counts_classes`, `C03_setNum_makeSet_refuted`, `C03_setNum_makeSet_partial`, `C04_find_observably_pure`, `C05_find_out_of_range`, `C05_join_same_set`, `C05_legal_histories_safe`, `C05_join_one_invalid_id_undefined`, `C05_size_invalid_id_undefined`, `C06_parents_one_per_set`, `C07_trees_shallow`
* **DoubleProps.v**
  * CEFN: `C168_range_refuted`, `C168_twice_refuted`, `C168_range_partial`, `C169_congruent`, `C169_unchanged`, `C170_cos_sin`, `C171_bounded_refuted`, `C171_bounded_partial`, `C173_bounded`, `C172_atan`, `C172_atan2`, `C172_sign`
* **FourierFloatProps.v**
  * CEFN: `C228_error`
* **FunctionsProps.v**
  * CEFN: `C47_bounds_refuted`, `C47_bounds_partial`, `C48_normalize_refuted`, `C85_findLUFourier_exact`, `C86_same_series_refuted`, `C86_same_series_partial`, `C87_normalize360`, `C88_fastCosSin`, `C88_periodic`, `C88_quarter_turns`, `C89_fastAtan`, `C90_fastAtan2`
  * EFN: `C45_evaluateFourier`, `C46_findLUCos`, `C48_normalize_partial`, `C87_normalize180`
* **GeoFloatProps.v**
  * CEFN: `C178_turn_refuted`, `C178_turn_partial`, `C179_lattice_ccw`, `C179_lattice_cone`, `C180_ccw_error`, `C180_ccw_sure`, `C181_range_refuted`, `C181_range_partial`, `C182_normalize_error`, `C183_inside`, `C197_end`
* **Geometry2Props.v**
  * CEFN: `C61_ccw`, `C97_intervals`, `C98_turns_refuted`, `C98_turns_partial`, `C99_cone_refuted`, `C99_cone_partial`, `C100_cone_exact`
  * EF: `C96_area_refuted`, `C96_area_partial`
  * EFN: `C101_pose`
* **GisFloatProps.v**
  * CEFN: `C191_local_refuted`, `C191_local_partial`, `C192_degrees`, `C193_metres`, `C194_ecef_refuted`, `C195_ecef`, `C194_ecef_partial`, `C196_forward`
* **GisProps.v**
  * CEFN: `C163_degrees`, `C164_metres_refuted`, `C164_metres_partial`
  * EF: `C106_constants_refuted`, `C106_constants_partial`
  * EFN: `C60_round_trip`, `C102_injective_refuted`, `C102_injective_partial`, `C103_rotation_refuted`, `C103_rotation_partial`, `C104_axes_refuted`, `C104_axes_partial`, `C105_ecef`
* **HoughChkProps.v**
  * EFN: `C216_spectrum`, `C216_parallel`, `C216_planes`, `C216_lines`, `C217_default_windows`
  * closed: `C216_lines_any`
* **HoughFloatProps.v**
  * CEFN: `C198_own_plane_refuted`, `C198_own_plane_partial`, `C199_sure`, `C199_vote`, `C199_defined`, `C200_distance`, `C201_normals`, `C201_start`, `C202_monotone`, `C202_no_resolution`
* **HoughProps.v**
  * EFN: `C56_params_differ`, `C56_params_refuted`, `C56_params_partial`, `C57_votes_refuted`, `C57_votes_partial`, `C121_votes`, `C122_insert_defined`, `C123_insert_few`, `C123_insert_refuted`, `C123_insert_partial`, `C124_insert_additive`, `C125_overloads_refuted`, `C125_range_partial`, `C126_normals`, `C127_defaults_differ`, `C127_defaults_refuted`, `C127_defaults_partial`, `C128_vote_distance`, `C129_half_bin_refuted`, `C129_half_bin_partial`, `C130_find_planes`, `C131_best_direction_refuted`, `C132_plane_params`, `C133_init_resets`, `C134_window`, `C135_range_check_refuted`, `C136_empty_refuted`, `C137_line_never_votes`, `C137_line_votes_refuted`, `C138_no_lines`, `C138_lines_refuted`, `C152_best_direction`, `C153_best_bin`, `C154_best_plane`, `C155_reported_values`, `C156_union`, `C157_parallel_planes`, `C184_constructed`, `C184_line`
  * F: `C135_range_check_partial`, `C184_default`
* **HoughWinProps.v**
  * CEFN: `C244_covers_refuted`, `C244_covers_partial`, `C245_whole_bins`, `C245_detectors`
* **IntervalChkProps.v**
  * closed: `C211_overflow_refuted`, `C211_constructors_exact_partial`, `C211_bounds_exact_partial`, `C211_inside_exact_partial`, `C211_inside_order_partial`, `C211_intersect_exact_partial`, `C211_moves_exact_partial`, `C212_near_zero`, `C213_peaks_int_exact`, `C213_line`, `C214_peaks_int_any`, `C215_empty_domain_refuted`, `C215_empty_domain_exact_partial`
* **IntervalProps.v**
  * closed: `C16_bijection`, `C17_iteration`, `C18_neighbours`, `C19_neighbours_refuted`, `C19_neighbours_exact_partial`, `C20_intersect`, `C20_intersect_shape`, `C20_translate_vector`, `C20_translate_axis`, `C20_stacked`, `C21_size`, `C22_grid_cells`, `C22_checked_position`, `C64_static_no_overflow`, `C64_runtime_overflow_refuted`, `C64_runtime_no_overflow_partial`, `C65_negative_extents_refuted`, `C66_size_refuted`, `C66_size_exact_partial`, `C67_constructors`, `C68_reinit_refuted`, `C68_reinit_exact_partial`, `C68_new_grid_partial`
* **IoProps.v**
  * closed: `C63_listing`, `C111_order`, `C112_throw_refuted`, `C112_throw_partial`
* **LabelPrintProps.v**
  * closed: `C220_reads_back`, `C220_same_text`, `C220_format`
* **LabelSetProps.v**
  * closed: `C08_set_algebra`, `C09_equality_refuted`, `C09_equality_same_size_partial`, `C09_equality_exact`
* **LutFloatProps.v**
  * CEFN: `C236_samples`, `C236_even`, `C236_vector`, `C237_between_refuted`, `C237_between_partial`, `C238_error`
* **MacroProps.v**
  * closed: `C248_var_refuted`, `C248_var_partial`, `C248_seven_partial`, `C249_assert`
* **MinMaxHeapProps.v**
  * closed: `C10_multiset`, `C11_extremes_push`, `C12_extremes_distinct`, `C13_extremes_duplicates_refuted`, `C13_extremes_two_copies_partial`, `C13_extremes_tame_partial`, `C146_queue_refuted`, `C146_queue_partial`, `C14_next_refuted`, `C14_next_sizes_partial`, `C15_memory_safety`
* **MortonFloatProps.v**
  * closed: `C32_order_partial`, `C32_strict_total_partial`, `C32_cycle_refuted`, `C32_signed_zero_refuted`, `C32_double_undefined`, `C33_float_partial`, `C33_opposite_signs`, `C33_far_negative_undefined`, `C33_double_undefined`, `C33_refuted`, `C33_subnormal_refuted`, `C70_distance_partial`, `C70_cube_partial`, `C70_refuted`, `C71_interval_partial`, `C71_descending_undefined`, `C71_refuted`, `C72_undefined`, `C72_split_partial`, `C72_order_refuted`
* **MortonNanProps.v**
  * closed: `C221_nan_refuted`, `C221_left_undefined`, `C221_right_partial`, `C221_finite_partial`
* **MortonProps.v**
  * closed: `C28_zorder`, `C28_strict_total_order`, `C28_any_dimension_refuted`, `C29_distance`, `C29_distance_cube`, `C30_block_partial`, `C30_undefined`, `C30_unsigned_range`, `C30_refuted`, `C31_split_partial`, `C31_refuted`, `C31_undefined`
* **MortonTreeProps.v**
  * closed: `C34_find_partial`, `C34_sort_partial`, `C34_double_undefined`, `C34_find_refuted`, `C73_find`, `C73_defined`, `C75_reset_ids`, `C35_ids_partial`, `C35_converter_keeps`, `C35_lost`, `C35_refuted`, `C35_range_refuted`, `C36_nothing_reported`, `C36_refuted`, `C36_undefined`, `C74_level`, `C143_source_refuted`, `C143_source_exact`, `C144_centre_refuted`, `C144_centre_partial`, `C186_late_ids_refuted`, `C186_late_ids_partial`
* **ParamBoolProps.v**
  * closed: `C239_set_get`, `C239_file`, `C239_text`, `C240_words_refuted`, `C240_words_partial`
* **ParamIntProps.v**
  * closed: `C229_set_get`, `C229_written_text`, `C229_file`, `C230_command_line`, `C231_int_text`, `C232_unsigned_text_refuted`, `C232_unsigned_text_partial`, `C233_unsigned_text`
* **ParamListProps.v**
  * closed: `C234_list_text`, `C234_written_list`, `C235_blanks_refuted`, `C235_blanks_partial`
* **ParamProps.v**
  * closed: `C37_history`, `C37_set_after_any_history`, `C37_table_stays_ordered`, `C37_set_then_get`, `C37_get_missing`, `C37_get_unconvertible`, `C37_get_present`, `C38_write_read`, `C38_commented_output_is_skipped`, `C39_arbitrary_round_trip_refuted`, `C77_round_trip_iff`, `C77_overlong_line_ends_reading`, `C40_command_line_partial`, `C40_non_ascii_refuted`, `C76_ascii_command_line`, `C76_non_ascii_is_undefined`, `C41_tilde_exact`, `C41_tilde_refuted`, `C42_container`, `C42_tokens`, `C42_inserter`, `C145_file`
* **PeakProps.v**
  * closed: `C53_one_dimension`, `C54_every_peak_refuted`, `C54_line_partial`, `C79_safe_any_dimension`, `C80_sound_refuted`, `C80_space_refuted`, `C80_line_partial`, `C81_zero_window`, `C147_ties_sound_refuted`, `C147_ties_sound_partial`, `C148_ties_complete_refuted`, `C148_ties_complete_partial`, `C149_rare_ties`, `C150_best_cell_refuted`, `C150_best_cell_partial`, `C151_best_cell`
* **PnebiProps.v**
  * CEFN: `C158_order0_large`
  * EF: `C50_lookup`, `C95_orders_partial`
  * EFN: `C49_recurrence`, `C49_zero`, `C91_decreasing_refuted`, `C91_decreasing_partial`, `C92_order0_accuracy`, `C92_positive_even`, `C93_init`, `C94_init_defined_refuted`, `C94_init_defined_partial`, `C95_orders_refuted`
* **PnebiProps2.v**
  * CEFN: `C159_decreasing_refuted`, `C159_decreasing_partial`, `C160_tolerance_partial`, `C161_accuracy`
  * EFN: `C160_tolerance_refuted`, `C160_small_tolerance`, `C162_orders`
* **ProfilerFloatProps.v**
  * CEFN: `C222_between_refuted`, `C222_between_partial`, `C223_statistics`
* **ProfilerProps.v**
  * closed: `C43_count_min_max`, `C43_other_labels_untouched`, `C43_own_samples_only`, `C43_printed_lines`, `C44_mean_variance_refuted`, `C78_what_is_reported`
* **ScopeProps.v**
  * closed: `C246_scopes`, `C246_statistics`, `C247_here_refuted`, `C247_here_partial`
* **SingleProps.v**
  * CEFN: `C174_atanf`, `C174_atan2f`, `C174_sign`, `C175_range_refuted`, `C175_range_partial`, `C176_cos_sinf`, `C176_bounded`, `C177_round_trip`, `C177_round_tripf`
* **StampProps.v**
  * closed: `C250_order`, `C251_distinct_refuted`, `C251_distinct_partial`
* **TlsFloatProps.v**
  * CEFN: `C203_double`, `C203_single`, `C207_double`, `C207_single`, `C210_double`, `C210_single`, `C204_between_partial`, `C205_unanimous_partial`, `C206_finite_partial`, `C209_double`, `C209_single`
  * closed: `C203_empty`, `C203_nan`, `C203_mismatch`, `C204_between_refuted`, `C204_single_refuted`, `C205_unanimous_refuted`, `C205_single_refuted`, `C206_finite_refuted`, `C206_single_refuted`, `C208_single_refuted`
* **TlsProps.v**
  * closed: `C51_running_sums`, `C52_result`, `C82_empty_refuted`, `C82_divides_by_zero`, `C82_size_mismatch`, `C83_maximum_consensus_refuted`, `C84_between_extremes`, `C84_unanimous`
* **VectorProps.v**
  * closed: `C188_entries`, `C189_plus_assign`, `C189_plus_self`, `C189_times_assign`, `C189_times_self`, `C190_scale_refuted`, `C190_scale_partial`
