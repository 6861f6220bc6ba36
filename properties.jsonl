{"id": "C01", "title": "get_next_pow2 rounds up to the least power of two", "statement": "For every 32-bit unsigned n with 1<=n<=2^31, get_next_pow2(n) is a power of two, is >= n, and no smaller power of two is >= n; for n=0 and for every n>2^31 it returns 0. ispow2(n) is true exactly for 0 and the powers of two.", "quantifier": "every 32-bit unsigned integer", "why_tests_cant": "the domain is 2^32 values and the claim is a minimality statement over all powers of two; a test samples a few inputs and misses the wrap region above 2^31", "anchors": ["modules/utils/include/litiv/utils/math.hpp: ispow2, get_next_pow2"]}
{"id": "C02", "title": "Hamming distance counts differing bits and is a metric", "statement": "popcount of an N-byte integer equals its number of one bits for every N and value; hdist(a,b) equals the number of bit positions where a and b differ, is 0 iff a=b, is symmetric and satisfies the triangle inequality; for byte arrays the default 8-bit accumulator is exact up to 255 differing bits and wraps beyond.", "quantifier": "every pair of integers and every pair of equally long byte arrays", "why_tests_cant": "metric laws quantify over triples of unbounded arrays; the accumulator wrap only shows for long all-different descriptors", "anchors": ["modules/utils/include/litiv/utils/math.hpp: popcount, hdist, gdist"]}
{"id": "C03", "title": "Integer L1 distances are exact or wrap in a known way", "statement": "L1dist(a,b) on 8/16/32-bit integers equals |a-b| for every pair (no overflow); the fixed-channel overload without an explicit output type returns the exact sum modulo 2^(8*sizeof(T)), hence is exact iff the true sum fits; with size_t output the sum is exact.", "quantifier": "all integer pairs and all channel vectors", "why_tests_cant": "wrap-around depends on value magnitude, and sample tests use small differences", "anchors": ["modules/utils/include/litiv/utils/math.hpp: L1dist"]}
{"id": "C04", "title": "Squared L2 distance is exact unless the promoted product overflows", "statement": "L2sqrdist(a,b) on 8-bit values is exactly (a-b)^2 for every pair; on 16-bit values it is exact iff |a-b|<=46340 and otherwise overflows signed int (undefined behaviour); a pair of representable inputs reaching the overflow exists. The multi-channel integer L2dist takes the square root of the sum of squares reduced modulo 2^16 for 8-bit channels, so two 3-channel colours more than 255 apart can be reported less than 5 apart.", "quantifier": "all pairs of 8-bit and 16-bit values", "why_tests_cant": "undefined behaviour region starts at |a-b|>46340, no finite sample shows absence elsewhere", "anchors": ["modules/utils/include/litiv/utils/math.hpp: L2sqrdist"]}
{"id": "C05", "title": "Color distortion is a non-negative bounded quantity", "statement": "For all 8-bit colour vectors with up to 4 channels cdist(curr,bg) performs no signed overflow, takes the square root of a non-negative number, is 0 when the vectors are equal or proportional, and never exceeds the norm of the current colour; cmixdist is half the L1 distance plus four times the distortion rounded down, but on 8-bit pixels the L1 part wraps modulo 256.", "quantifier": "all pairs of 8-bit colour vectors", "why_tests_cant": "Cauchy-Schwarz must hold under integer division for all 2^48 vector pairs", "anchors": ["modules/utils/include/litiv/utils/math.hpp: cdist, cmixdist"]}
{"id": "C06", "title": "Nearest-neighbour search returns the first minimiser", "statement": "For every distance function and candidate list, find_nn_index returns an index whose distance is minimal, with every earlier candidate strictly farther; for the empty list it returns size_t(-1).", "quantifier": "every list and distance function", "why_tests_cant": "quantifies over all lists and all callbacks", "anchors": ["modules/utils/include/litiv/utils/math.hpp: find_nn_index"]}
{"id": "C07", "title": "interp1 passes through the knots but is not piecewise-linear interpolation", "statement": "For strictly increasing knots interp1 returns exactly Y[i] at a query equal to X[i]; a query in the first half of a segment is interpolated on that segment, but in the second half the line of the FOLLOWING segment is extended backwards, so the documented behaviour (linear interpolation) fails on an explicit three-knot input; queries outside the knots throw; with more abscissae than ordinates the slope table is read out of bounds.", "quantifier": "every sorted knot list, value list and query", "why_tests_cant": "pass-through tests succeed; the deviation only appears when the nearest knot is the right end of the segment", "anchors": ["modules/utils/include/litiv/utils/math.hpp: interp1"]}
{"id": "C08", "title": "linspace spacing and endpoints", "statement": "For every a,b and n>=2, linspace(a,b,n) has n entries, starts at a, ends at b and consecutive entries differ by (b-a)/(n-1) (over exact arithmetic); n=0 gives the empty vector and n=1 gives {b}.", "quantifier": "all endpoints and counts", "why_tests_cant": "quantifies over all counts", "anchors": ["modules/utils/include/litiv/utils/math.hpp: linspace"]}
{"id": "C09", "title": "expand_bits is an injective bit interleave", "statement": "For every word width up to 32 and expansion factor k, bit i*k of expand_bits<k>(v) equals bit i of v and all other bits are zero, so the operation is injective on values that fit; on 64-bit types it is undefined (int-typed shift). extend_bits maps 0 to 0 and the maximum to the maximum, strictly monotonically, as long as the extension at most doubles the bit count, and not beyond that (counterexample given).", "quantifier": "every integer and expansion factor", "why_tests_cant": "bitwise statement over all values", "anchors": ["modules/utils/include/litiv/utils/math.hpp: expand_bits, extend_bits"]}
{"id": "C10", "title": "fastrand has full period and range", "statement": "The generator behind fastrand maps 32-bit seeds bijectively, every seed visits all 2^32 states before repeating, and outputs are always in [0,32767] (bits 16..30 of the new seed). The multiplication is done on a signed int, so for some seeds it is undefined by the C++ rules; where it is defined it agrees with the wrapping generator.", "quantifier": "every seed and every number of steps", "why_tests_cant": "the orbit has 2^32 elements", "anchors": ["modules/utils/include/litiv/utils/math.hpp: fastrand"]}
{"id": "C11", "title": "LU/determinant/inverse of small matrices", "statement": "Over exact rationals, for every N determinant<N> is the determinant (Laplace expansion), LU with a right-hand side returns the unique solution of A X = B, and invert<N> writes a two-sided inverse whenever it reports success (N<=3: input and output buffers disjoint) and fails on every singular matrix. Inverting a 2x2 or 3x3 matrix in place, determinant of integer 4x4 matrices, and well-conditioned matrices smaller than the absolute tolerance give wrong answers (witnesses).", "quantifier": "all matrices", "why_tests_cant": "algebraic identity over all entries; aliasing misuse is value dependent", "anchors": ["modules/utils/include/litiv/utils/math.hpp: determinant, invert, LU"]}
{"id": "C12", "title": "Vector helper functions meet their set/sequence contracts", "statement": "filter_in/filter_out keep exactly the elements in/not in the reference list in the original order with multiplicities; indices_of maps each value to a position in the reference list holding that value or the size when absent; sort_indices returns a permutation that sorts the values; unique_indices gives one index per distinct value (not necessarily the first occurrence, as documented); unique returns the strictly sorted distinct values; make_range(a,b,s) is a,a+s,...,b, empty when b<a, and overflows int when b is INT_MAX or b-a exceeds it.", "quantifier": "all vectors of comparable values", "why_tests_cant": "permutation and ordering claims over all vectors", "anchors": ["modules/utils/include/litiv/utils/cxx.hpp: filter_out, filter_in, indices_of, sort_indices, unique_indices, unique, make_range"]}
{"id": "C13", "title": "String helpers: split/join, clamp, token search", "statement": "For every string and delimiter, joining the pieces of split with the delimiter gives the original back up to one trailing delimiter and no piece contains the delimiter; clampString always returns exactly the requested length, truncating or left-padding; string_contains_token is true iff some token occurs as substring.", "quantifier": "all strings and delimiters", "why_tests_cant": "round-trip over unbounded strings", "anchors": ["modules/utils/src/cxx.cpp: split, clampString, string_contains_token"]}
{"id": "C14", "title": "putf returns the complete formatted text for every length", "statement": "putf produces the full formatted string for every output length except when the text length equals the internal buffer size, where exactly the last character is lost.", "quantifier": "every formatted length", "why_tests_cant": "fails for a single length (1024) only", "anchors": ["modules/utils/src/cxx.cpp: putf"]}
{"id": "C15", "title": "AutoBuffer refines a growable vector and never touches memory outside its current block", "statement": "For every static capacity and every sequence of construct/copy/move/assign/resize/resize_static/reserve/clear/push_back/write/read/destroy operations on any number of buffers that stays clear of the hazards of C16, size and element values visible through AutoBuffer equal those of an abstract vector, and every access is inside the live block (static array or the single live heap block); no block is leaked or freed twice.", "quantifier": "all operation sequences, capacities and element values", "why_tests_cant": "history property over unbounded operation sequences; includes static-to-dynamic transitions", "anchors": ["modules/utils/include/litiv/utils/cxx.hpp: AutoBuffer"]}
{"id": "C16", "title": "AutoBuffer move and self push_back can leave dangling pointers", "statement": "Moving an AutoBuffer whose data lives in the static array leaves the destination pointing into the source object; push_back of an element of the same buffer at full capacity reads freed memory. Both are exhibited by concrete operation sequences, and all sequences avoiding them are safe.", "quantifier": "operation sequences", "why_tests_cant": "depends on capacity/size state at the time of the call", "anchors": ["modules/utils/include/litiv/utils/cxx.hpp: AutoBuffer"]}
{"id": "C17", "title": "Aligned allocation sizes and addresses", "statement": "AlignedMemAllocator requests a byte count that is a multiple of the alignment, at least n*sizeof(T) and less than one alignment more; max_size bounds it.", "quantifier": "all sizes, element sizes and alignments", "why_tests_cant": "rounding over all sizes", "anchors": ["modules/utils/include/litiv/utils/cxx.hpp: AlignedMemAllocator"]}
{"id": "C18", "title": "Semaphore safety and no lost wake-ups", "statement": "Under every interleaving of notify/wait/try_wait by any number of threads, spurious wake-ups and timeouts included, the count equals initial+notifies-completed waits, and no wake-up is lost: when no woken thread is left to run, either the count is zero or nobody waits. try_wait succeeds exactly when the count is positive. Two things do not hold: a waiter can be overtaken for ever, and the count wraps at the top of its type.", "quantifier": "all thread counts and schedules", "why_tests_cant": "schedule-quantified", "anchors": ["modules/utils/include/litiv/utils/cxx.hpp: Semaphore"]}
{"id": "C19", "title": "WorkerPool runs every queued task exactly once before destruction completes", "statement": "Under every interleaving of queueTask calls, workers and the destructor: each task is executed at most once, tasks start in FIFO order, the destructor returns only when all tasks queued before it have finished, the pool always comes to rest with an empty queue (no wake-up is lost), and queueing after destruction started is refused. A task accepted by a queueTask that races with the destructor can be left unrun, and the pool used after its end.", "quantifier": "all worker counts, task lists and schedules", "why_tests_cant": "schedule-quantified; lost wake-up bugs are rare races", "anchors": ["modules/utils/include/litiv/utils/cxx.hpp: WorkerPool"]}
{"id": "C20", "title": "Lookup tables return the sample at the nearest lower (or rounded) grid point", "statement": "For every function, bin count >=2, safety margin and non-degenerate domain (exact arithmetic), eval(x) for x in the domain reads inside the table and returns f at the greatest grid point <= x, eval_round returns f at a nearest grid point, queries up to the safety margin outside the domain return f at the domain end; grid points include both domain ends. The mid-pointer lookup of an even-sized table does not return f(min) at x=min (explicit witness).", "quantifier": "all functions, domains, bin counts, margins and queries", "why_tests_cant": "index range and nearest-grid claim over all queries", "anchors": ["modules/utils/include/litiv/utils/cxx.hpp: LUT::init, LUT::eval, LUT::eval_round, LUT::eval_mid"]}
{"id": "C21", "title": "SIMD helpers equal their scalar definitions", "statement": "For all lane values: hsum_8ui equals the exact sum of 16 bytes, hsum_32i equals the sum of 4 int32 modulo 2^32, hmin/hmax equal the minimum/maximum, mult_8i and mult_32si equal lane-wise products (low halves); the non-SSE4.1 extract helper returns a wrong value because of operator precedence.", "quantifier": "all lane values", "why_tests_cant": "2^128 inputs", "anchors": ["modules/utils/include/litiv/utils/simd.hpp: cmp_zero_128i, cmp_eq_128i, hsum_8ui, hsum_32i, unpack_8ui_to_16ui, mult_8i, mult_32si, extract_32si, hmin_8ui, hmax_8ui, hmax_32si"]}
{"id": "C22", "title": "Sampling and neighbour positions stay inside the image", "statement": "For every image size strictly greater than twice the border, every origin pixel and every random value, clampImageCoords/getSamplePosition/getNeighborPosition return coordinates within [border,size-border-1]; sampling kernels select each offset with frequency equal to its kernel weight over one full residue cycle.", "quantifier": "all sizes, origins, borders, non-negative random values", "why_tests_cant": "all-inputs memory-safety", "anchors": ["modules/utils/include/litiv/utils/opencv.hpp: clampImageCoords, getSamplePosition, getNeighborPosition"]}
{"id": "C23", "title": "Matrix size objects: equality, transpose and totals", "statement": "MatSize equality is an equivalence relation in which all zero-area sizes are equal; transpose is an involution preserving the total element count; total equals the product of dimensions when it fits in size_t.", "quantifier": "all dimension lists", "why_tests_cant": "all-inputs algebraic law", "anchors": ["modules/utils/include/litiv/utils/opencv.hpp: MatSize_"]}
{"id": "C24", "title": "Packed YCbCr round trip keeps luma exactly", "statement": "For every 8-bit (Y,Cr,Cb) triple, unpacking the packed 16-bit value returns Y exactly and Cr,Cb rounded down to a multiple of 16; packing after unpacking is the identity on 16-bit values; the vectorised path equals the scalar path for every pixel.", "quantifier": "all pixels", "why_tests_cant": "2^24 triples and all lane positions", "anchors": ["modules/utils/include/litiv/utils/opencv.hpp: cvtBGRToPackedYCbCr, cvtPackedYCbCrToBGR"]}
{"id": "C25", "title": "HSL conversion round trip", "statement": "Over exact arithmetic, converting any HSL colour with hue in [0,360), saturation and lightness in [0,1] to BGR yields channels in [0,1]; converting any BGR colour in [0,1]^3 to HSL and back is the identity.", "quantifier": "all real colours", "why_tests_cant": "continuum of inputs with 6 hue sectors", "anchors": ["modules/utils/include/litiv/utils/opencv.hpp: getBGRFromHSL, getHSLFromBGR"]}
{"id": "C26", "title": "Binary matrix write/read round trip", "statement": "Reading a file produced by the binary (or LZ4 with a lossless codec) writer returns a matrix with identical type, dimensions and bytes, for every dimension count, size and content; if the file header is changed the reader may copy past the end of the allocated matrix (explicit header).", "quantifier": "all matrices and all file contents", "why_tests_cant": "round-trip over all matrices; corrupted headers unbounded", "anchors": ["modules/utils/src/opencv.cpp: lv::write, lv::read"]}
{"id": "C27", "title": "packData/unpackData are inverse", "statement": "For every non-empty list of matrices, unpacking the packed buffer with the returned infos yields the same matrices in the same order, both for homogeneous and heterogeneous types, consuming the buffer exactly.", "quantifier": "all matrix lists", "why_tests_cant": "unbounded lists", "anchors": ["modules/utils/src/opencv.cpp: lv::packData, lv::unpackData"]}
{"id": "C28", "title": "copyValidPixelsTo writes exactly the visible overlap", "statement": "For every ROI rectangle (partly or fully outside the image), the function copies input pixel (r,c) of the ROI to the same ROI position iff that position lies inside the image, leaves all others untouched, and returns the number copied.", "quantifier": "all images and rectangles", "why_tests_cant": "all geometric configurations", "anchors": ["modules/utils/src/opencv.cpp: copyValidPixelsTo"]}
{"id": "C29", "title": "Integer image shift", "statement": "For integer offsets, lv::shift yields out(r,c)=in(r-dy,c-dx) where defined and the border rule elsewhere.", "quantifier": "all images and integer offsets", "why_tests_cant": "all-inputs", "anchors": ["modules/utils/src/opencv.cpp: lv::shift"]}
{"id": "C30", "title": "Log-polar mask bins are valid descriptor indices", "statement": "Every non-negative entry of the log-polar mask is < radial*angular bins when angular bins divide 360 (Chatfield layout); for some angular bin counts not dividing 360 the angular bin equals or exceeds the bin count, giving an out-of-range descriptor index.", "quantifier": "all mask sizes and bin counts", "why_tests_cant": "failing bin counts are configuration dependent", "anchors": ["modules/utils/src/opencv.cpp: getLogPolarMask", "modules/features2d/src/LSS.cpp: ssdescs_impl"]}
{"id": "C31", "title": "Higher-order energy reduction preserves the energy", "statement": "For every pseudo-boolean function of n variables, the coefficients computed by the higher-order factor reducer satisfy: for every assignment A, the sum of coefficients of the non-empty subsets of A equals E(A)-E(empty).", "quantifier": "all orders n and energy tables", "why_tests_cant": "Moebius inversion over 2^n subsets for all n", "anchors": ["modules/utils/include/litiv/utils/opengm.hpp: factorReducer"]}
{"id": "C32", "title": "Vectorised LBSP thresholding equals the scalar definition", "statement": "For all 16 neighbour bytes, reference and threshold, the SSE4.1 and SSE2 code paths produce the same 16-bit descriptor as the scalar code, whose bit n is set iff |v_n-ref|>threshold.", "quantifier": "all byte values", "why_tests_cant": "2^144 inputs", "anchors": ["modules/features2d/include/litiv/features2d/LBSP.hpp: computeDescriptor_threshold, computeDescriptor_threshold_*"]}
{"id": "C33", "title": "LBSP gradient magnitude and orientation bounds; lookup in bounds", "statement": "For every descriptor the gradient components lie in [-6,6] and the magnitude in [0,16]; for every image and every key point at distance >= 2 from the border the 16 looked-up neighbours are distinct, inside the image and not the centre.", "quantifier": "all descriptors, images, key points", "why_tests_cant": "all-inputs memory-safety", "anchors": ["modules/features2d/include/litiv/features2d/LBSP.hpp: computeDescriptor_gradient, computeDescriptor_lookup"]}
{"id": "C34", "title": "LBSP relative thresholds saturate instead of wrapping", "statement": "The per-intensity threshold table is monotone in intensity and always in [0,255] for relative thresholds in [0,1] and offsets below 2^31; for offsets from 2^31 the result is 0 (explicit witness).", "quantifier": "all thresholds and intensities", "why_tests_cant": "large offsets unusual", "anchors": ["modules/features2d/src/LBSP.cpp: lbsp_computeImpl"]}
{"id": "C35", "title": "Joint histograms have consistent marginals", "statement": "For every pair of equally sized images, the marginal counts are the row/column sums of the joint counts, every count total equals the number of pixels, all bin indices are in range, and the sparse and dense representations agree.", "quantifier": "all image pairs and quantisation steps", "why_tests_cant": "all-inputs", "anchors": ["modules/features2d/include/litiv/features2d.hpp: calcJointProbHist"]}
{"id": "C36", "title": "Mutual information is non-negative, symmetric, and normalised value is at most 1", "statement": "For every joint histogram, mutual information is >=0, symmetric under exchange of the two inputs, 0 for independent inputs, and at most each marginal entropy; with the fast-approximation flag the returned score is 0 for every input.", "quantifier": "all histograms", "why_tests_cant": "inequality (Gibbs) over all distributions", "anchors": ["modules/features2d/include/litiv/features2d.hpp: calcMutualInfo"]}
{"id": "C37", "title": "Zhang-Suen thinning terminates and is idempotent", "statement": "For every binary image, thinning terminates, the result is a subset of the input, the outermost pixels are unchanged, and thinning the result changes nothing; non-emptiness is not preserved (2x2 block disappears).", "quantifier": "all binary images", "why_tests_cant": "termination and fixpoint over unbounded images", "anchors": ["modules/imgproc/src/imgproc.cpp: thinning, thinning_internal_ZhangSuen"]}
{"id": "C38", "title": "Lam-Lee-Suen thinning reads outside its neighbour table", "statement": "The Lam-Lee-Suen variant (the default mode) evaluates index 8 of an 8-entry neighbour table exactly when some interior foreground pixel has a background lower-right neighbour; otherwise its output is a subset of the input with a black border.", "quantifier": "all images", "why_tests_cant": "undefined behaviour may be silent", "anchors": ["modules/imgproc/src/imgproc.cpp: thinning_internal_LamLeeSuen"]}
{"id": "C39", "title": "Histogram median is the upper median", "statement": "For every non-empty set of selected pixels calcMedianValue returns the element of rank floor(n/2) of the sorted selected values; with an all-zero mask it reads past the end of the histogram; the masked medianBlur instead keeps the lower median.", "quantifier": "all images and masks", "why_tests_cant": "order statistic over all multisets", "anchors": ["modules/imgproc/include/litiv/imgproc.hpp: calcMedianValue", "modules/imgproc/src/imgproc.cpp: calcHistCounts"]}
{"id": "C40", "title": "Binary median via integral image equals direct counting", "statement": "For every binary image and odd kernel size, the unmasked binaryMedianBlur equals the masked version with an all-ones mask: output 255 iff strictly more than half of the in-image window pixels are positive; without the forced conversion a 0/255 image is dilated instead.", "quantifier": "all images and kernels", "why_tests_cant": "integral image identity over all sizes", "anchors": ["modules/imgproc/src/imgproc.cpp: binaryMedianBlur", "modules/imgproc/include/litiv/imgproc.hpp: integral/binaryIntegral"]}
{"id": "C41", "title": "Non-maximum suppression marks only strict local maxima and all isolated ones", "statement": "For every image and window size, each marked pixel is strictly greater than all pixels outside its own block within the window, two marked pixels in different blocks are never within the window of each other, and each pixel strictly greater than everything in its window is marked, provided its value is positive or the window reaches beyond its tile; without that side condition (negative values, masked blocks) pixels are lost or written out of bounds.", "quantifier": "all images, window sizes", "why_tests_cant": "all-inputs geometric claim", "anchors": ["modules/imgproc/include/litiv/imgproc.hpp: nonMaxSuppression"]}
{"id": "C42", "title": "Edge hysteresis computes connected components of strong edges", "statement": "For every gradient map and thresholds the labelling scan and flood fill of the LBSP edge detector terminate, stay inside the label map and the working stack, and mark exactly the candidate pixels 8-connected through candidates to a strong candidate. The mask that is returned shows the edges of image row i+2 in row i, so it is shifted up by two rows (refutes alignment), and its last two rows show whatever the label buffer held from an earlier call (refutes that a blank image has no edges).", "quantifier": "all gradient maps, thresholds, image sizes and previous buffer contents", "why_tests_cant": "reachability closure over unbounded images; buffer contents depend on the history of calls", "anchors": ["modules/imgproc/src/EdgeDetectorLBSP.cpp: apply_internal_threshold"]}
{"id": "C43", "title": "Edge detector pyramid sizes", "statement": "Filling a pyramid level of the LBSP edge detector stays inside its lookup map exactly when the level has at least two rows, and two columns unless it has at most four rows; then every pixel is visited once, the 16-neighbour lookup is used exactly two pixels away from the border, every pixel of the next level is written once, and its values stay in the range of their sources. Level l has ceil(n/2^l) rows; an image with at most 2^(levels-1) rows makes the code write outside its buffers.", "quantifier": "all image sizes, level counts", "why_tests_cant": "small images only", "anchors": ["modules/imgproc/src/EdgeDetectorLBSP.cpp: apply_internal_lookup"]}
{"id": "C67", "title": "Edge detector keeps the smallest gradient over the levels, but loses its direction", "statement": "For every image and number of levels the in-place propagation leaves at each pixel the smallest gradient magnitude of its cells over all levels. The sector test against tan(22.5deg) is exact for all char gradients, but the default map value is laid out for the wrong byte order: the kept x gradient is always 0 and the y gradient -1, 0 or 1, so non-maximum suppression never runs horizontally, even where all levels see a horizontal gradient.", "quantifier": "all gradient maps, image sizes, level counts", "why_tests_cant": "depends on the interleaving of in-place writes over all levels; a fixed image shows only some edges", "anchors": ["modules/imgproc/src/EdgeDetectorLBSP.cpp: apply_internal_threshold", "modules/features2d/include/litiv/features2d/LBSP.hpp: computeDescriptor_gradient"]}
{"id": "C44", "title": "Binary classification counters partition the pixels", "statement": "For every prediction, ground truth and optional ROI of the same size without row gaps, BinClassif::accumulate adds to TP, TN, FP, FN and DC the numbers of pixels of each class under the documented labels (they sum to the number of pixels) and to SE the number of positives on shadow labels (at most FP); without ground truth all pixels go to DC; frames can be counted in any order and partial counters merged. getColoredMask shows TP, FN, FP and SE by distinct colours. Not so for an ROI that is a submatrix: it passes the assertion (which tests the ground truth twice) and is read with the wrong row step.", "quantifier": "all images, initial counters and frame sequences", "why_tests_cant": "all-inputs counting; needs a strided ROI", "anchors": ["modules/datasets/src/metrics.cpp: BinClassif::accumulate, BinClassif::getColoredMask", "modules/datasets/include/litiv/datasets/metrics.hpp: BinClassif"]}
{"id": "C45", "title": "Classification metrics are well defined and bounded", "statement": "For all counters whose sum fits 64 bits: recall, specificity, FPR, FNR, precision and F-measure lie in [0,1] and PBC in [0,100]; recall+FNR=1 and specificity+FPR=1 when defined; the F-measure is 2TP/(2TP+FP+FN) and lies between precision and recall; MCC lies in [-1,1] and is 1 exactly when there is no error. From 2^32 false positives and negatives the unsigned product wraps and the sign of MCC can be wrong; a faultless result without positives scores recall, precision and F-measure 0.", "quantifier": "all counters", "why_tests_cant": "algebraic bounds over all counters; overflow only for huge counters", "anchors": ["modules/datasets/include/litiv/datasets/metrics.hpp: BinClassifMetrics::CalcRecall, CalcPrecision, CalcSpecificity, CalcFMeasure, CalcMatthewsCorrCoeff"]}
{"id": "C46", "title": "Averaged metrics equal the mean over non-empty batches", "statement": "For every tree of dataset groups, the averaged metrics of a group equal the arithmetic mean of the metrics of its units (work batches and bare groups that produced output; other groups are opened), whatever the nesting, and the assertion fails exactly when nothing was output; accumulated counters equal the sum over work batches. The average is not the metric of the totals and categories do not weigh the same.", "quantifier": "all group trees and all metrics", "why_tests_cant": "unbounded nesting", "anchors": ["modules/datasets/src/metrics.cpp: MetricsCalculator_::accumulate", "modules/datasets/include/litiv/datasets/metrics.hpp: MetricRetriever_::getMetrics, getMetricsBase", "modules/datasets/src/utils.cpp: DataGroupHandler"]}
{"id": "C47", "title": "Stereo disparity error counters", "statement": "For every pair of maps the per-pixel errors collected are exactly those of pixels with valid ground truth inside the ROI, in order, and the others are counted as DC; the percentage of bad pixels lies in [0,100], never grows with the error margin, does not depend on the order and merges as a weighted mean; average error is at most the RMS. A NaN estimate spreads to average and RMS but is never counted as bad.", "quantifier": "all disparity maps and margins", "why_tests_cant": "all-inputs; needs NaN estimates", "anchors": ["modules/datasets/src/metrics.cpp: StereoDispErrors::accumulate", "modules/datasets/include/litiv/datasets/metrics.hpp: StereoDispErrorMetrics::CalcPercentBad, CalcAverage, CalcRMS"]}
{"id": "C48", "title": "Asynchronous precaching never changes packet content", "statement": "For every packet source, buffer size and schedule of the precaching thread: every getPacket(i) that returns gives exactly the content the data callback gives for i, for any order of requests (forward, backward, repeated, beyond the end, with timeouts falling back to a direct call); the memory of the packet last returned is not overwritten while precaching goes on; a request is always eventually answered. Two limits are proved too: the very first request for index SIZE_MAX returns an empty packet without consulting the source, and once the worker has reached the end of the stream it never precaches again even if the requests go back.", "quantifier": "all request sequences, packet sizes, buffer sizes and schedules", "why_tests_cant": "schedule and history quantified; needs ring-buffer overlap reasoning", "anchors": ["modules/datasets/src/utils.cpp: DataPrecacher::getPacket, DataPrecacher::entry"]}
{"id": "C49", "title": "Precacher lifecycle hazards", "statement": "Stopping precaching (or an exception in the background thread) frees the buffer that the packet last returned still points to, and asking for that index again then returns it; after an exception in the background thread every later start or stop, including the one in the destructor, rethrows, and no packet is ever precached again. Histories without stop or exception are covered by C48.", "quantifier": "all histories; explicit histories for the hazards", "why_tests_cant": "needs specific call orders", "anchors": ["modules/datasets/src/utils.cpp: DataPrecacher::stopAsyncPrecaching, DataPrecacher::startAsyncPrecaching"]}
{"id": "C50", "title": "Asynchronous writer stores each accepted packet exactly once", "statement": "With one worker (the default) and for every schedule in which no index is queued again while it is being written - in particular whenever the indices are distinct - each accepted packet is passed to the write callback exactly once with the content it had when queued (or is replaced by a later packet of the same index, or is still queued); the callback runs once at a time; packets accepted in increasing order are written in that order; the byte count and packet count are exact and never exceed the limit; a packet is accepted if and only if it fits, and its returned position is the number of queued packets of smaller index; write exceptions are each reported once. If no thread is inside queue() when the writer is started or stopped, stopping writes everything accepted, no wake-up is lost, blocked callers are served and stop returns. Without that precaution a packet accepted during a stop is lost (explicit schedule).", "quantifier": "all schedules, packet lists, size limits", "why_tests_cant": "schedule quantified", "anchors": ["modules/datasets/src/utils.cpp: DataWriter::queue, DataWriter::entry, DataWriter::startAsyncWriting, DataWriter::stopAsyncWriting"]}
{"id": "C51", "title": "Asynchronous writer with several workers or re-queued indices is unsafe", "statement": "Several workers never share the work: unless something is queued in between, all workers that are writing write the same packet, and the second to finish erases a node that is gone (undefined behaviour); with no worker nothing is written. With one worker, a packet queued again under the index being written is accepted and erased without being written; if it is smaller than the one being written, the byte count wraps around and the worker then spins for ever holding the mutex, after which no packet is accepted or written and no stop returns.", "quantifier": "all states and continuations; explicit schedules for the hazards", "why_tests_cant": "rare interleavings", "anchors": ["modules/datasets/src/utils.cpp: DataWriter::entry, DataWriter::queue"]}
{"id": "C52", "title": "Processed packet counting and batch restart", "statement": "For every history of start, push and stop calls on a batch the output count equals the number of distinct indices pushed since the last start, the final count and time become available at the first stop and never change after it, and a batch that was stopped never runs again: starting it a second time throws because the completion promise is already satisfied.", "quantifier": "all push sequences", "why_tests_cant": "history", "anchors": ["modules/datasets/src/utils.cpp: IDataCounter", "modules/datasets/include/litiv/datasets.hpp"]}
{"id": "C53", "title": "Group trees aggregate leaves", "statement": "For every dataset tree, getBatches flattened returns each leaf exactly once in depth-first order, count queries equal the sums over leaves modulo 2^64, state queries hold when some leaf has them, and calls reach the leaves once in order up to the first that throws. Parsing finds exactly the directories not skipped, each with its own path; it throws when a skip token matches a whole work batch directory, and names with a backslash can share a path.", "quantifier": "all trees", "why_tests_cant": "unbounded trees", "anchors": ["modules/datasets/src/utils.cpp: DataGroupHandler, DataHandler::DataHandler, printDataStructure", "modules/datasets/include/litiv/datasets.hpp: IDataset_::parseData"]}
{"id": "C54", "title": "Packet file names are injective", "statement": "Different packet indices always map to different default input/output/feature names and CDnet names for every fixed packet count, so that what is loaded for a packet is what was last saved for it, stream by stream; images named by their files keep this only while their names without extension differ. A sorted listing has the packets in order up to a million of them (a thousand million for wide names), but not beyond, since wide names start only at ten million packets.", "quantifier": "all indices, packet counts, save sequences", "why_tests_cant": "all pairs of indices up to 2^64", "anchors": ["modules/datasets/src/utils.cpp: getInputName, getOutputName, getFeaturesName, saveOutput, loadOutput, saveOutputArray, loadOutputArray", "modules/datasets/include/litiv/datasets/impl/CDnet.hpp: getOutputName"]}
{"id": "C55", "title": "ViBe classifies by sample consensus and only ever stores observed values", "statement": "For every model and frame a pixel is background iff enough of its samples, as they are when it is reached in raster order, are similar to it: for all grey images, and for colour images whose squared distances fit 16 bits; beyond that distances wrap around, so that a bright red pixel is background on a black model. For every video and random source each stored sample is a value observed at most 3 pixels away in the initial image or 1 pixel away in a later frame, a change of the model comes from a background pixel at most one pixel away, and foreground pixels never modify the model. A pixel similar to everything seen around it is background whatever the random numbers; a still uniform scene has no foreground, a still scene with texture may have some.", "quantifier": "all frame sequences, random sequences, thresholds and sample counts", "why_tests_cant": "history and random source quantified", "anchors": ["modules/video/src/BackgroundSubtractorViBe.cpp: BackgroundSubtractorViBe_1ch::initialize, BackgroundSubtractorViBe_1ch::apply, BackgroundSubtractorViBe_3ch::initialize, BackgroundSubtractorViBe_3ch::apply"]}
{"id": "C56", "title": "Feedback loops of SuBSENSE and PBAS stay within bounds", "statement": "For every video, sample contents and post-processing, the per-pixel update rate of SuBSENSE stays within the caps of the frame, the caps within 1 and 512 and in order, the averages within 0 and 1, the distance factor above 1 and the variation modulator above its floor; in PBAS the rate, the mean distance and the distance factor stay within fixed bounds and the lottery modulus is never zero. Pixels are background exactly when enough samples are similar. In SuBSENSE nothing bounds the distance factor: after some thousand frames it shifts a 64-bit number by 64; a window below four frames divides by zero; a large lighting change shifts a 32-bit number by more than 31. No other fault is possible.", "quantifier": "all videos, distances to the samples, segmentations and parameters", "why_tests_cant": "history quantified; the fault needs thousands of frames", "anchors": ["modules/video/src/BackgroundSubtractorSuBSENSE.cpp: apply, initialize", "modules/video/src/BackgroundSubtractorPBAS.cpp: apply, initialize"]}
{"id": "C57", "title": "ROI pixel tables are bijections", "statement": "For every ROI mask the pixel index table enumerates exactly the non-zero pixels, each once, in raster order, the two tables are inverse to each other and hold the coordinates of the pixel. Whatever ROI is asked for, the one used keeps a descriptor radius away from the image sides; a ROI passed to initialize is grown by that radius, with the added pixels marked apart. Consequently the ROI returned by getROICopy can be refused by initialize, and setROI before initialize does not use the same region as initialize with the ROI.", "quantifier": "all masks, sizes, border sizes", "why_tests_cant": "all-inputs bijection", "anchors": ["modules/video/src/BackgroundSubtractionUtils.cpp: initialize_common, validateROI, setROI"]}
{"id": "C58", "title": "Path filtering keeps and removes as documented", "statement": "For every list, remove-tokens take precedence over keep-tokens, an empty keep list keeps everything not removed, order and multiplicity are preserved and filtering twice changes nothing; tokens are matched against the whole path, so one that occurs in the directory removes every file. Directory listings hold exactly the regular files except Thumbs.db (or the sub-directories), sorted, independently of the order given by the system.", "quantifier": "all path lists and token lists", "why_tests_cant": "all-inputs", "anchors": ["modules/utils/src/platform.cpp: filterFilePaths, getFilesFromDir, getSubDirsFromDir, addDirSlashIfMissing"]}
{"id": "C59", "title": "Image warping only reads computed displacements inside the source", "statement": "For every grid size, image sizes and control points the warp visits every destination pixel exactly once, reads displacement entries only at grid nodes that were computed, and source coordinates stay in the image, so that values stay within those of the source. A null strength and control points that stay in place copy the image; control points moved by a translation move the whole image, and a rotation (with a scaling in similarity mode) is reproduced exactly at nodes and in all cells but the last ones; a control point on the grid is honoured, one on the last column may not be; coinciding control points divide by zero.", "quantifier": "all sizes, grids", "why_tests_cant": "all-inputs memory-safety", "anchors": ["modules/imgproc/src/imwarp.cpp: ImageWarper::warp, computeTransform"]}
{"id": "C60", "title": "Row-aligned matrix allocation never overlaps elements", "statement": "For every dimension list, element size and power-of-two alignment whose padded size fits 64 bits, the computed steps place every element inside the allocation, distinct indices at disjoint byte ranges in row-major order, and each row start (each element if asked) at an aligned address, with no padding when rows are aligned already. The sizes are not checked for wrap-around, other alignments are accepted without aligning, and user data is used with padded steps whatever its size.", "quantifier": "all dimensions, element sizes", "why_tests_cant": "all-inputs layout claim", "anchors": ["modules/utils/include/litiv/utils/opencv.hpp: AlignedMatAllocator::allocate", "modules/utils/include/litiv/utils/cxx.hpp: AlignedMemAllocator::allocate"]}
{"id": "C61", "title": "Cumulative sums accumulate in the input element type", "statement": "cumulativeSum returns at every position the sum of the prefix reduced modulo the INPUT element type's range, even when a wider output type was requested; it is the exact prefix sum whenever all prefix sums are representable.", "quantifier": "all vectors, all integer widths", "why_tests_cant": "overflow depends on the whole prefix", "anchors": ["modules/utils/include/litiv/utils/cxx.hpp: cumulativeSum"]}
{"id": "C62", "title": "digit_count counts decimal digits of ints only", "statement": "For every representable int except the minimum the result is the number of decimal digits of the absolute value (1 for zero), and wider arguments are first truncated to int, so the count is wrong for them.", "quantifier": "all integers", "why_tests_cant": "unbounded input range, undefined case at the minimum", "anchors": ["modules/utils/include/litiv/utils/cxx.hpp: digit_count"]}
{"id": "C63", "title": "compare_lowercase is a strict weak order", "statement": "The case-insensitive comparison is irreflexive, transitive, with transitive incomparability (a valid sort/map comparator), equals the lexicographic order of the lowercased strings; two strings are incomparable exactly when they differ only in the case of ASCII letters.", "quantifier": "all strings", "why_tests_cant": "order axioms quantify over triples of strings", "anchors": ["modules/utils/include/litiv/utils/cxx.hpp: compare_lowercase"]}
{"id": "C66", "title": "LBSP difference images rescale the Hamming distance without wrapping", "statement": "For every pair of descriptors the difference image holds floor(255*h/16) with h the number of differing bits, hence stays in 0..255; the three-channel merged variant adds floor(255*h/48) per channel and never wraps the 8-bit output.", "quantifier": "all descriptor pairs", "why_tests_cant": "2^32 descriptor pairs, wrap only near the maximum", "anchors": ["modules/features2d/src/LBSP.cpp: calcDescImgDiff"]}
{"id": "C68", "title": "Archived masks keep their score", "statement": "For every binary output image and region of interest of its size, the archived image has 127 outside the region and the same pixels inside it; other images are archived unchanged. Evaluating the archived image with the same region gives exactly the counts and colours of the original, archiving it again changes nothing, and evaluating it without the region may not give the same counts.", "quantifier": "all images, regions, ground truths, counters", "why_tests_cant": "all-inputs equality of two evaluations", "anchors": ["modules/datasets/src/utils.cpp: IDataArchiver_<NotArray>::saveOutput, IDataArchiver_<Array>::saveOutputArray", "modules/datasets/src/metrics.cpp: BinClassif::accumulate"]}
{"id": "C69", "title": "PBAS sample models hold observations", "statement": "For every sequence of random numbers and every video: frames whose rows have no gaps are processed within the buffers and colour frames always are, while a grey frame with row gaps and more than one row, which apply() accepts, is not; each stored background sample is a value-gradient pair observed together, in the initial image at most 3 pixels away or later at the pixel itself; a frame changes samples only through a background pixel at most one pixel away, and a frame all in the foreground changes none; the gradient normaliser stays between 20 and the greatest distance; each pixel follows the feedback loop of C56, so its thresholds stay bounded and its update lottery never divides by zero; a grey pixel is background exactly when enough samples are near, in particular whenever it is near to everything observed; a still uniform scene has no foreground. (Refuted: a pixel found to be foreground stays out of its own background model.)", "quantifier": "all videos, image sizes, parameters, random sequences", "why_tests_cant": "unbounded histories of random updates", "anchors": ["modules/video/src/BackgroundSubtractorPBAS.cpp: BackgroundSubtractorPBAS_1ch::apply, BackgroundSubtractorPBAS_3ch::apply, initialize"]}
{"id": "C70", "title": "SLIC connectivity", "statement": "For every label image and every positive size limit, SLIC::enforceConnectivity terminates and gives each pixel a label; the pixels of one label form one 4-connected region; no connected component of the input is split; components of at least max(2,limit) pixels keep labels of their own, these are exactly the labels counted by the return value, and every smaller component is merged into another one unless it is the whole image. The limit is positive for every image of at least 2x2 pixels and superpixel diameter of at least 3. Without a limit exactly the one-pixel components are left with label -1. Asking for more superpixels than pixels divides by zero. (Refuted: every pixel is labelled on one-row images; the returned number bounds the labels; components of at most limit pixels are merged.)", "quantifier": "all label images, sizes, limits", "why_tests_cant": "connectivity of all regions over all images is an inductive graph property", "anchors": ["modules/imgproc/src/SLIC.cpp: SLIC::enforceConnectivity, SLIC::initialize, iDivUp"]}
{"id": "C71", "title": "BSDS500 edge scores", "statement": "For every edge mask and ground truth set, the recall counts are the ground truth pixels having an edge pixel within 0.0075 diagonals, out of all of them; the precision counts never exceed the edge pixels near the ground truth; adding edge pixels never lowers recall. The counts stored for a threshold are those of an edge mask that differs from the right one only by pixels whose value is exactly an earlier threshold, so they are exact if no pixel value is a threshold. The best score reported is consistent and at least every score and interpolated score. Sums over images do not depend on their order. (Refuted: a perfect detection has precision 1; stored counts are exact; the area under the curve is computed - it is 0, an exception, or a read past the end of the vector.)", "quantifier": "all images, masks, ground truths, threshold lists, score lists", "why_tests_cant": "sweeps with skipping and first-match searches are data dependent", "anchors": ["modules/datasets/src/impl/BSDS500.cpp: accumulate, FindMaxFMeasure, updateScores", "modules/datasets/include/litiv/datasets/impl/BSDS500.hpp: BSDS500Counters"]}
{"id": "C72", "title": "LOBSTER decides on and keeps what it saw near each pixel", "statement": "On images of 1 or 3 channels, initialize, apply and refreshModel never touch memory outside their buffers. A pixel of the region of interest is background in the mask before the median filter exactly when at least the required number of its samples, as they are when it is reached, are near in colour and disagree with its LBSP texture in few enough bits. After any history every sample of the region is a colour and the LBSP texture seen with it, at a point at most 3 pixels away, in the first image (black outside of the region) or in a frame; a frame changes samples only to what is at a background pixel at most 1 away, and an unforced refresh neither changes foreground pixels nor reads them. The background image lies between the samples. A scene of one colour is never foreground 5 pixels or more inside of the region. Refuted: that it is never foreground in all of the region (the first model has the textures of the black border), that an accepted refresh fraction refreshes something, that an infinite learning rate stops learning, and that 4-channel images, which are accepted, are handled (they are read with a stride of 3).", "quantifier": "for all image contents and sizes, regions, thresholds, numbers of samples, random numbers and histories of frames and refreshes", "why_tests_cant": "the models are random and depend on the whole history; tests see a few videos and cannot tell where a sample came from, and the spoilt border only shows on the first frames", "anchors": ["modules/video/src/BackgroundSubtractorLOBSTER.cpp: refreshModel, initialize, apply, getBackgroundImage", "modules/video/src/BackgroundSubtractorLBSP.cpp: initialize_common", "modules/features2d/include/litiv/features2d/LBSP.hpp: computeDescriptor_lookup, computeDescriptor_threshold"]}
{"id": "C64", "title": "Earth mover's distances are least transport costs", "statement": "For every two vectors of non-negative entries with the same size and total, EMDL1dist is the least work of any plan moving one onto the other on a line of bins, attained by some plan, and CEMDL1dist is the least work on a circle of bins. Both are metrics (the circular one among vectors of one total); the circular one is never greater, does not change when the bins are renumbered from another start, and is at most half the number of bins for normalized vectors, the other at most one less than their number. Memory outside of the vectors is read exactly when the second vector is shorter, or by CEMDL1dist on empty vectors. (Refuted: CEMDL1dist of different vectors is positive when their totals differ.)", "quantifier": "all vectors of rationals, all transport plans, all renumberings", "why_tests_cant": "optimality quantifies over all transport plans; tests compare a few vectors with one other implementation", "anchors": ["modules/utils/include/litiv/utils/math.hpp: EMDL1dist, CEMDL1dist", "modules/utils/include/litiv/utils/cxx.hpp: cumulativeSum"]}
{"id": "C65", "title": "Unique colour maps never confuse two values", "statement": "For every integer image with 2 to 719 distinct values, every random number and every shuffle, getUniqueColorMap ends and gives equal values equal colours and different values different colours, none of them grey; the table handed back has exactly the values of the image and its colours. Images with more values are refused; an image of one value becomes white. (Refuted: a table that is asked for always receives the values of the image.)", "quantifier": "all images, random numbers, shuffles", "why_tests_cant": "the colours depend on random start angles per division and on the rounding of 3600 colours; a collision would show for a few angles only", "anchors": ["modules/utils/include/litiv/utils/opencv.hpp: getUniqueColorMap, unique, getBGRFromHSL"]}
{"id": "C73", "title": "Gaussian mixtures are fitted to exactly the samples they are given", "statement": "For samples of one to three dimensions and every number of components, GMM learning always succeeds; each component with samples gets their share as weight, their mean, and their covariance (with 0.01 more variance in each direction exactly if its determinant is below 1e-6), which is positive definite, with its true inverse and determinant; a component without samples gets weight 0 and keeps the rest. The weights lie in [0,1] and sum to 1. A component's density is that of the normal distribution, positive, and greatest exactly at the mean; the mixture is the weighted sum, positive as soon as there was a sample. getBestComponent gives a component of greatest density, the last one if it ties, otherwise the first. On images, initialization fails exactly if the pixels of a side outnumber the channels but not the components; assignment gives each pixel of the region the best component of its side, and learning from it uses exactly these pixels. (Refuted: the best component is the one the sample most likely belongs to; every mask is accepted; every pixel of the map is assigned.)", "quantifier": "all sample lists, labels, images, masks and regions, numbers of components", "why_tests_cant": "positive definiteness and the noise rule quantify over all sample sets; tests compare one photograph with OpenCV", "anchors": ["modules/utils/include/litiv/utils/math.hpp: GMM, determinant, invert", "modules/imgproc/include/litiv/imgproc.hpp: initGaussianMixtureParams, assignGaussianMixtureComponents, learnGaussianMixtureParams"]}
{"id": "C74", "title": "rootSIFT and sparseness", "statement": "rootSIFT gives each entry the sign it had and as square its share of the L1 norm (plus DBL_EPSILON), so that results have length just below 1; with L2 normalization also. Scaling a vector scales its result; squared distances of results are at most the L1 distance of the shares and below 2. Without support for negative entries numbers result exactly if no entry is negative, or none is positive and the sum is below -DBL_EPSILON. Integer descriptors, which nothing rejects, become all zero. sparseness is in [0,1] for every vector of at least two entries but the zero vector, 0 exactly if all magnitudes are equal, 1 exactly if a single entry is not zero, and does not change with order, sign or scale; of a zero vector it is NaN. (Refuted: rootSIFT does not depend on scale; sparseness is defined on all accepted vectors.)", "quantifier": "all vectors of real numbers", "why_tests_cant": "bounds and their equality cases are inequalities over all vectors (Cauchy-Schwarz)", "anchors": ["modules/utils/include/litiv/utils/math.hpp: rootSIFT, sparseness"]}
{"id": "C75", "title": "SuBSENSE decides on, learns and keeps what it saw near each pixel", "statement": "On images of 1 or 3 channels, initialize, apply and refreshModel of SuBSENSE never touch memory outside their buffers nor divide by zero; what can go wrong are an average over no frame (fewer than 4 frames for averages), a distance factor beyond what can be shifted (only after 5441 frames), a mean difference of 64 or more in a large image, and large images with a side of less than 8, for which apply always throws. Every frame is, at every pixel of the region, a step of the feedback loop of C56 on distances in range. A pixel is background before the morphological operations exactly when enough of its samples, as the pixels before it have left them, are similar in colour and in texture relative to both colours. After any history a sample is the colour and texture of a point at most 3 away, seen together in the first image or a frame, or black for points outside of the region, or without texture for the first row and column. A frame stores only what is at background pixels at most 2 away (1 for stable pixels of large images), or the pixel itself after a reset; a frame all in the foreground stores nothing; a learning rate that is given decides alone. Texture thresholds stay monotone bytes between their limits and move by at most one per frame. In scenes of one colour, pixels with only pixels of the region around them are never foreground. (Refuted: still scenes stay background in their first frame, or after it, as samples of the first row and column have no texture and adapted thresholds do not match stored textures; scenes of one colour are background everywhere in a region; an infinite learning rate stops learning.)", "quantifier": "for all image contents and sizes, regions, parameters, random numbers, morphological results and histories of frames and refreshes", "why_tests_cant": "the models are random and depend on the whole history; tests see a few videos, cannot tell where a sample came from, and the feedback loops take thousands of frames to leave their usual range", "anchors": ["modules/video/src/BackgroundSubtractorSuBSENSE.cpp: refreshModel, initialize, apply", "modules/video/src/BackgroundSubtractorLBSP.cpp: initialize_common", "modules/video/include/litiv/video/BackgroundSubtractorSuBSENSE.hpp"]}
{"id": "C76", "title": "PAWCS dictionaries keep one word per place and never dangle", "statement": "On images of 1 or 3 channels, initializing a new PAWCS object succeeds exactly when its region does and both sides are at least 8. Whatever frames are processed and refreshes are made since, every place of the local and global dictionaries points to a word of its own in the list of words, every word is pointed to, the words have colours, descriptors, dates and occurrences that make sense, the order of global words of each pixel is a permutation, and no memory outside is read or written; the only failure is a shift by 64 or more, which takes 4940 frames. A refresh is refused exactly if its fraction is not in [0,1]. Initializing an object again follows pointers into the discarded list of words, or reads an empty map. With fewer than 8 samples for averages the first frame divides by zero. Initialization resets everything but the automatic-reset switch; the maps of global words are blurred within their bounds and illumination counters stay in 0..2.", "quantifier": "all image contents, sizes, regions, parameters, random numbers, morphological results, frame-level ratios and histories of frames and refreshes", "why_tests_cant": "dictionaries are arrays of raw pointers permuted by every pixel of every frame; a test sees a dangling pointer only if the allocator reuses the memory", "anchors": ["modules/video/src/BackgroundSubtractorPAWCS.cpp: initialize, refreshModel, apply", "modules/video/include/litiv/video/BackgroundSubtractorPAWCS.hpp"]}
{"id": "C77", "title": "PAWCS decides by the weight of matching words and learns only the pixel", "statement": "A frame is its pixels one after the other. A pixel is background if the words of its dictionary that fit (colour distance within the root of its radius times the threshold, mean descriptor distance within the power of two of its radius) weigh at least its first word divided by twice the radius, or if it is at the border of the region, or if a global word resembles it and adds enough; if it fits no word and resembles no global word it is foreground. A compared word keeps its birth, may become the pixel if it was near, and counts one observation only if it fits; a new word replaces only a word of least weight; at most one neighbour's dictionary changes, in no way on greyscale images but by replacement of its last word. Sums of colour differences are kept in 8 bits: after black, grey 80 is all foreground and grey 86 is all background.", "quantifier": "all reached states, images, override rates other than 2^63, random numbers", "why_tests_cant": "each decision depends on weights accumulated over the whole history and on the order in which pixels are processed", "anchors": ["modules/video/src/BackgroundSubtractorPAWCS.cpp: apply", "modules/video/include/litiv/video/BackgroundSubtractorPAWCS.hpp"]}
{"id": "C78", "title": "PAWCS feedback stays within bounds", "statement": "After n frames the update rate of every pixel is between 1 and 256, its variation modulator between 0.1 and 10+n+min(n,500), its radius between 1 and 10+(n+min(n,500))/100, and its means between 0 and 1. The table of descriptor thresholds stays between its first values and its limits, monotone, and changes by at most one per frame; it falls only after two frames with less than a tenth of textured pixels and grows only after two with more than half. A pixel is marked as blinking exactly when its raw decision changed in this frame or the last, away from the dilated foreground of both. A learning rate override of 2^63 makes the frame divide by zero.", "quantifier": "all reached states and pixels", "why_tests_cant": "the feedback loops take hundreds of frames to approach their bounds, and the override is one value of a double", "anchors": ["modules/video/src/BackgroundSubtractorPAWCS.cpp: apply, refreshModel", "modules/video/include/litiv/video/BackgroundSubtractorPAWCS.hpp"]}
{"id": "C79", "title": "PAWCS background images are weighted means of words", "statement": "In every state reached, each pixel of the background image is the mean of the colours of its words weighted by occurrences per age, between the least and greatest colour of those with occurrences, unless all its words have none: then it is 0/0, which a refresh with base occurrence count 0 brings about. Background descriptors are averaged as numbers and may have bits that no word has.", "quantifier": "all reached states, pixels and channels", "why_tests_cant": "words without occurrences only appear after particular refreshes", "anchors": ["modules/video/src/BackgroundSubtractorPAWCS.cpp: getBackgroundImage, getBackgroundDescriptorsImage, GetLocalWordWeight, refreshModel", "modules/video/include/litiv/video/BackgroundSubtractorPAWCS.hpp"]}
{"id": "C80", "title": "The terms of a fusion move are the change of a clique's cost", "statement": "For every clique, label, labeling and set of moved nodes, the terms that factorReducer gives to the move's minimizer add up to the cost of the clique after the move minus its cost before. Each term names at least one node of the clique, in increasing order, and there is one for each non-empty set of nodes.", "quantifier": "all clique orders, cost functions, labelings, labels and moves", "why_tests_cant": "the number of moves is exponential in the order and cost functions are arbitrary", "anchors": ["modules/utils/include/litiv/utils/opengm.hpp: factorReducer"]}
{"id": "C81", "title": "Stereo associations follow the disparity labels", "statement": "From any warped or absent previous labels, resetting the stereo labeling and carrying out any fusion moves never fails an assertion and never leaves the association buffers; afterwards each pixel has the label the moves gave it, each column's count is the number of pixels matched to it, and each column's list holds the pixel matched to it by each label, or -1.", "quantifier": "all grid sizes, ROIs, disparity ranges, cost functions, initial labels and sequences of moves", "why_tests_cant": "a mismatch only shows after particular sequences of moves, as a wrong energy", "anchors": ["modules/imgproc/src/SegmMatcher.cpp: resetStereoLabelings, addAssoc, removeAssoc, getAssocCount, infer", "modules/imgproc/include/litiv/imgproc/SegmMatcher.hpp"]}
{"id": "C82", "title": "Stereo fusion moves never increase the energy", "statement": "With up to 199 disparities, the value reported for a labeling is its energy (uniqueness, unary and clique costs), the terms of a move are at least the change of the energy and nothing when no label changes, so that with a solver whose answer is not worse than changing nothing the assertion 'stereo energy not minimizing!' never fires. The terms are only a bound: a move that lowers the energy can be charged as raising it. The constructor accepts up to 253 disparities, and then a column can be matched by more pixels than the cost tables have entries.", "quantifier": "all states reached by moves, all labels, answers of the solver and non-decreasing tables", "why_tests_cant": "needs all answers of the solver; tables overrun only when 200 pixels share a column", "anchors": ["modules/imgproc/src/SegmMatcher.cpp: calcAddAssocCost, calcRemoveAssocCost, calcTotalAssocCost, calcStereoUnaryMoveCost, calcStereoMoveCosts, infer, StereoGraphInference::value", "modules/utils/include/litiv/utils/opengm.hpp: factorReducer"]}
{"id": "C83", "title": "SegmMatcher gives out positions of disparities", "statement": "The constructor accepts any two bounds that differ by at most 252, in any order. The disparity maps that apply and getOutput give out hold positions in the list of getLabels, not its labels: the disparity is the smallest one plus the value given out, and these agree only when the smallest is zero; otherwise outputs need not be labels, and a pixel without disparity can be given out as one. In debug builds no labeling can be set as a starting point.", "quantifier": "all disparity ranges, reached states and pixels", "why_tests_cant": "holds by accident for the usual smallest disparity of zero", "anchors": ["modules/imgproc/src/SegmMatcher.cpp: SegmMatcher, apply, getOutput, getRealLabel, getInternalLabel, setStartingPoint", "modules/imgproc/include/litiv/imgproc/SegmMatcher.hpp"]}
{"id": "C84", "title": "SegmMatcher projects disparities to the other camera", "statement": "The labels of the secondary camera are computed from those of the primary one. The projection never fails: before smoothing each pixel of the region has the largest disparity among the primary pixels matched to it, or is occluded; after the 9x9 median each hole takes the final label of the nearest pixel of the region on its right, or the label of the nearest labelled pixel on its left if that is closer, or the smallest disparity; no pixel of the region is left without label and no label is out of range. A run of holes takes one label however long it is. Refuted: that a pixel keeps the disparity it was matched with (the median erases it at the edge of a region), and that no occluded label is given out when occluded labels are switched off. The occlusion map marks, before its 5x5 median, exactly the pixels of the region that no pixel of the other camera is matched to, and after it those with at least 13 marks around them; so a pixel that nothing is matched to may stay unmarked (refuted).", "quantifier": "all image sizes, disparity ranges, regions, primary labelings, pixels and runs of holes", "why_tests_cant": "the outcome depends on ties, borders and the order in which holes are filled", "anchors": ["modules/imgproc/src/SegmMatcher.cpp: resetStereoLabelingByProjection, computeOcclusionMaps, getOffsetColIdx", "modules/imgproc/include/litiv/imgproc/SegmMatcher.hpp"]}
{"id": "C85", "title": "SegmMatcher's primal-dual moves keep their duals tight and hand the energy to the solver", "statement": "The resegmentation moves start from duals that add up to the cost of each clique at the current labels, with heights that account for each label of each node, so that the heights of the current labels add up to the energy. The table that is filled for a clique by walking over a Gray code holds for each set of changing members the cost of the new labels less their duals. With tight duals and a right table of memberships no assertion fails, and the value of the problem handed to the solver for a set of changing nodes differs from that of changing nothing exactly by the change of the energy, so that a minimizer is the best move. Whatever the solver answers and however it reparametrized, the duals are tight for the new labels and the heights right after the correction.", "quantifier": "all graphs with cliques of any size and nonnegative costs, all labelings, labels, duals, answers and reparametrizations", "why_tests_cant": "the invariant has to hold between all moves of all graphs; a wrong entry in one table changes the labels silently", "anchors": ["modules/imgproc/src/SegmMatcher.cpp: setupPrimalDual, solvePrimalDual, calcResegmMoveCosts", "modules/imgproc/include/litiv/imgproc/SegmMatcher.hpp", "3rdparty/sospd: SubtractLinear"]}
{"id": "C86", "title": "SegmMatcher's resegmentation graph: the table of memberships is right only without temporal cliques", "statement": "Each node of the resegmentation graph keeps a table of the cliques it belongs to, from which the moves look up its duals. The table is right in the first frame (for whatever masks, motion and costs), and then a minimizer of the problem posed is the best move. It is wrong in every later frame in which some pixel with even coordinates is moved by the optical flow to a pixel of the mask: temporal cliques are numbered after all pairs while the duals are numbered node by node, and their members are counted from the other end. Refuted: that from the second frame on the best answer of the solver does not raise the energy.", "quantifier": "all image sizes, masks, motions, costs, frames, labelings, and orders in which the parallel loop meets the nodes", "why_tests_cant": "the numbering is consistent in the first frame, and later only the labels get worse", "anchors": ["modules/imgproc/src/SegmMatcher.cpp: buildResegmModel, updateResegmModel, solvePrimalDual", "modules/imgproc/include/litiv/imgproc/SegmMatcher.hpp"]}
{"id": "C87", "title": "DASC descriptors tell weighted correlations", "statement": "For every image and parameters the constructor accepts, the recursive filter leaves at each pixel a mean over the whole image with positive weights that depend only on the image described. Hence each entry of a descriptor is 1 in flat places and otherwise exp(2(rho-1)), with rho the weighted correlation of the image and its displaced copy, between -1 and 1; every descriptor has 128 non-negative entries and length one, and uniform images have the same descriptor whatever their intensity. Refuted: that all pixels left by validateROI are described from all their pairs; pairs that touch the first row or the first column of the image are taken as outside.", "quantifier": "all image sizes, images, parameters, pixels and pairs (over the reals)", "why_tests_cant": "a universally quantified inequality over images; the missed row and column change descriptors by a little at two borders only", "anchors": ["modules/features2d/src/DASC.cpp: recursFilter, dasc_rf_impl, validateROI, pretrained", "modules/features2d/include/litiv/features2d.hpp: localDiff"]}
{"id": "C88", "title": "Shape context maps count the contour points of each ring and sector", "statement": "compute2 with a dense map stores, in each bin of each pixel, the number of contour points lying in that ring and sector around it (pixels with nothing in reach keep zero), after any earlier calls in which every detectAndCompute had keypoints. When the inner radius leaves the last ring but one within the outer radius, skipping pixels with blank surroundings loses nothing; for other radii that the constructor takes, whether a point is counted can depend on a pixel that lies in no bin (refuted). A keypoint listed twice has its counts doubled in the map form (refuted for contours passed twice), keypoints outside the image are read out of bounds, a detectAndCompute without keypoints leaves the keypoints of the previous image for the next dense map (refuted: out of bounds or missing counts), and a single radial bin counts nothing.", "quantifier": "all images and contours, all radii and numbers of bins, all angular bins, all histories of calls, all keypoints and bins", "why_tests_cant": "the tests compare a few descriptors with stored values for one set of radii and one extractor per image; sequences of calls and other radii are not sampled", "anchors": ["modules/features2d/src/SC.cpp: ShapeContext::ShapeContext, compute2, detectAndCompute, scdesc_fill_contours, scdesc_fill_desc_direct", "modules/utils/src/opencv.cpp: lv::getLogPolarMask"]}
{"id": "C89", "title": "Affinity maps score exactly the pixels that can be matched", "statement": "computeImageAffinity stores at each pixel (borders left out) and displacement the score of the two windows when both centres are wanted and both windows lie in the images, and -1 otherwise; the windows never leave the images. computeDescriptorAffinity stores the average distance over the pixels of the patch that can be matched by the same displacement, and -1 if there are none; with unit descriptors values lie in [0, sqrt 2]. For every patch size and all regions of interest the map of the second camera can be read off the map of the first. Without patches a value other than -1 tells that the pixel and its match are wanted and in the images; with patches it does not (refuted for both).", "quantifier": "all image sizes, patch sizes, displacement lists, regions of interest, images, descriptor maps, pixels and displacements (over the reals)", "why_tests_cant": "the tests compare the CPU and GPU versions and a few hand-computed entries on random maps; the symmetry on which SegmMatcher relies to deduce the second camera's costs is not tested at all", "anchors": ["modules/imgproc/src/imgproc.cpp: lv::computeImageAffinity, lv::computeDescriptorAffinity"]}
{"id": "C90", "title": "Virtual PTZ: pixels and directions on the sphere", "statement": "PTZPointXYtoHV turns every pixel of a valid view into angles in the documented ranges, and an upright pinhole camera sees that direction at exactly that pixel; other pixels and views end in an error. PTZPointHVtoXY reports a direction at the pixel it is seen nearest to when its coordinates are not negative, hence going to angles and back gives the same pixel; false is returned exactly for directions behind the camera. A bounding box translated to the same view is centred and keeps its size. Refuted for every view: that directions at a right angle to the camera are handled (division by zero, then conversion to int), that directions seen left of the image are reported outside of it (the conversion goes towards zero), and that a box as wide or high as the view can be translated (always an error although documented as valid).", "quantifier": "all views (sizes, field of view, camera angles), all pixels and all target directions (over the reals)", "why_tests_cant": "the conversions are trigonometric functions of five real parameters; the module has no tests of them", "anchors": ["modules/vptz/src/virtualptz.cpp: vptz::PTZPointXYtoHV, vptz::PTZPointHVtoXY, GTTranslator::GetGTTargetPoint, GTTranslator::GetGTBoundingBox"]}
{"id": "C91", "title": "Virtual PTZ camera: parameters, motion and clock", "statement": "Whatever sequence of Set, GoToPosition, BeginPlaying, WaitDelay and GetFrame is called, the camera keeps parameters in their ranges. Set takes any horizontal angle and stores the same direction; each pixel can then be followed, the camera looks where it was seen, and the motion charged is the shortest turn. WaitDelay goes to a strictly later frame and tells whether there is one, hence without seeking a scenario ends after at most as many calls as frames. Between two calls the time passed is charged without that of GetFrame, and time does not go backwards. Refuted: angles beyond 180 that point backwards (540) are stored as -180, after which no pixel can be followed; the motion has the wrong sign for turns from below to above by more than 180; a motion is charged again by each later call; without GetFrame or when playing again the time charged can be negative; setting an earlier frame has no effect on the next one; UpdateViewAngle and the constructor of GTTranslator check the old (uninitialised) angles instead of the new ones, so bad angles are taken and can never be replaced.", "quantifier": "all parameters, all sequences of calls, all clock readings, all angles and pixels (over the reals)", "why_tests_cant": "the effects depend on the history of calls and on the clock; the module has no tests", "anchors": ["modules/vptz/src/virtualptz.cpp: vptz::Camera::Set, GoToPosition, BeginPlaying, WaitDelay, GetFrame, GTTranslator::GTTranslator, GTTranslator::UpdateViewAngle, GTTranslator::GetGTTargetPoint"]}
{"id": "C92", "title": "Virtual PTZ evaluator: what the measures of a tracker tell", "statement": "In every session after BeginTesting, the averages of target point error and offset are means over the frames not counted as lost, at most one result is taken per frame, and no more than the last minus the first; the overlap of two boxes is the share of their common pixels among the pixels of both, in [0,1], 1 exactly for equal boxes. Each frame of a test has its entry in the ground truth. Refuted: that frames are counted as lost exactly when the target is out of the view (the column is compared with the height: targets in the right part of a wide image count as lost, targets below the image as seen); that the average overlap is at most 1 (all frames are summed, but divided by those not lost: an always right tracker gets more); that the processed ratio is at most 1 (for every test with a still camera some session exceeds it, or divides by zero); that a frame with two empty boxes leaves the average a number; that the tracker is compared with the target's box when a corner is behind the camera (an earlier box is used); that a test has frames (one ending before the ground truth is accepted by default); that GetInitTargetBBox is where the target was cut out (wrong for odd sizes in even images).", "quantifier": "all sessions of GetNextFrame and UpdateCurrentResult, all views, targets, tracker boxes, clocks and frame ranges (over the reals)", "why_tests_cant": "the values are averages over sessions that depend on the clock; nothing compares them with what they are meant to tell", "anchors": ["modules/vptz/src/virtualptz.cpp: vptz::Evaluator::Setup, BeginTesting, GetNextFrame, UpdateCurrentResult, EndTesting, GetInitTargetBBox"]}
{"id": "C93", "title": "Local self-similarity descriptors tell where a patch recurs", "statement": "For every image at least as large as the window, the dense map is completely written; each bin of a pixel whose window fits holds exp(-m/noise) for the least sum of squared differences m between its patch and the patches at the displacements of the bin (before normalization in (0,1], 1 exactly when the same patch recurs there). The dense map, the map for keypoints and the rows for keypoints hold the same descriptor for a pixel. Normalized descriptors always have length one, so distances stay within the square root of two; brightening or inverting the image changes nothing. Refuted: that the map for keypoints is defined elsewhere; that border pixels can be recognised (their normalized descriptor is that of a flat area); that a patch recurring nowhere differs from one recurring everywhere; that isUsingDynamicNoiseVarNorm tells the truth; that descriptors depend on the image with Lienhart's mask and one radial bin.", "quantifier": "all images, keypoint lists, patch sizes, radii, lookup maps and noise levels (over the reals)", "why_tests_cant": "the statement is about all displacements of all patches of an image, and about memory that is never written", "anchors": ["modules/features2d/src/LSS.cpp: LSS::LSS, compute2, both ssdescs_impl, ssdescs_norm, isUsingDynamicNoiseVarNorm, calcDistances", "modules/utils/src/opencv.cpp: lv::getLogPolarMask"]}
{"id": "C94", "title": "Keypoints are described where they lie", "statement": "Keypoints at whole coordinates are kept exactly when the neighbourhood of their descriptor lies in the image, in order, and are described at their own pixel; without keypoints and mask the rows are the inner pixels in row-major order and can be reshaped to the inner size, where the descriptor of (r,c) is at (r-b,c-b). LBSP descriptors of distinct whole keypoints are put back at their pixels and everything else is zero. Every keypoint validated by the mutual information extractor is accepted by its computation. lv::validateKeyPoints keeps exactly the whole keypoints in the region. Refuted: that kept keypoints are always described within the image (the filter rounds, the extractors truncate: exactly those in the half pixel before the border are not); that a mask excludes descriptors of masked-out pixels; that LBSP puts one channel descriptors back at the pixel they describe; that the rows of a whole image can be reshaped to its size; that mutual information keeps all computable keypoints; that DASC uses the keypoints it is given for a map; that lv::validateKeyPoints only reads the region inside of its bounds.", "quantifier": "all images, keypoint lists with rational coordinates, borders, masks, regions and window sizes", "why_tests_cant": "three roundings meet in half-open half-pixel bands along two sides of the image, which tests on detected corners do not hit", "anchors": ["modules/features2d/src/LBSP.cpp: lbsp_computeImpl, compute2, detectAndCompute, reshapeDesc, validateKeyPoints", "modules/features2d/src/LSS.cpp: detectAndCompute, reshapeDesc, ssdescs_impl", "modules/features2d/src/DASC.cpp: compute2, detectAndCompute, reshapeDesc", "modules/features2d/src/MI.cpp: compute, validateKeyPoints", "modules/utils/include/litiv/utils/opencv.hpp: lv::validateKeyPoints"]}
{"id": "C95", "title": "Image and video packets show the data set in any order", "statement": "Whatever packets were requested before, getInput of a video gives the frame of that index with the announced size and type (each pixel being the source pixel at the same relative position, with an opaque alpha channel when 4-byte aligned), or fails exactly when the type of the frame cannot be converted; frames with the type of the first never fail. Past the end the packet is empty when the container counts its frames right, and each missing frame is an error when it counts too many. Directories of images behave alike. Image sets list exactly the readable files in order, each with its own size and type, and tell rightly whether all are equal; every one of them loads, and an index past the end gives an empty packet; indices without ground truth give an empty ground truth packet. Sizes are scaled to the nearest integer. Refuted: that requests past the announced end give an empty packet when the container counts too few frames (an error), and that requests are independent for the largest index (the expected frame index wraps around, and frame 0 then fails).", "quantifier": "all videos and image sets, all scale factors, all histories of requested indices", "why_tests_cant": "a test reads frames in order or at a few positions; the reader is only moved when the index is not the expected one, so the outcome could depend on any earlier request", "anchors": ["modules/datasets/src/utils.cpp: IDataLoader_ getInput, getInput_redirect, getGT_redirect, IDataProducer_<DatasetSource_Video>::getRawInput, parseData, IDataProducer_<DatasetSource_Image>::getRawInput, parseData, getInputInfo, getRawGT"]}
{"id": "C96", "title": "Array packets, features and outputs come back as they were", "statement": "While only arrays are requested from an array loader, each request gives the matrices of its index in any order, and indices that cannot be loaded are an error that spoils nothing. Features saved last for an index are loaded, as a matrix or as an array with its packing information, unless that index was also the one loaded last; indices without features give an empty matrix. Output arrays are loaded back stream by stream whatever is saved for other indices. Refuted for all cases: that the array of an index is valid after its packed data was requested through the super-interface (its headers refer to released memory); that loadFeatures sees what saveFeatures wrote for the index loaded last; and by example: that saving an empty matrix replaces features, that a failed loadFeaturesArray leaves the next one right, that the packing information is heeded for the index loaded last; and that several output streams of a single image type are loaded from where they are saved (release builds).", "quantifier": "all arrays up to 2 GiB, all histories of requests, loads and saves, all indices below the largest", "why_tests_cant": "the results depend on the index of the last request and on memory shared between two members; tests request an index once and in order", "anchors": ["modules/datasets/src/utils.cpp: DataPrecacher::getPacket, IIDataLoader::getInput_redirect, loadFeatures, saveFeatures, loadRawFeatures, IDataLoader_<Array>::getInputArray, getGTArray, loadFeaturesArray, saveFeaturesArray, IDataArchiver_<Array>::loadOutputArray, saveOutputArray", "modules/utils/src/opencv.cpp: lv::packData, lv::unpackData"]}
{"id": "C97", "title": "Stereo costs of SegmMatcher and the disparities a frame starts from", "statement": "For every pixel of the primary region, a disparity leading into the region of the other camera costs 20 times its distance to the median of the pixel's shape plus the whole parts of the two affinities weighed by their saliencies; a disparity leading elsewhere costs the sum of the costs of the matching disparities before it divided by their number plus one; special labels cost 10000. Exactly the neighbours within the region are paired, each pair once, at the squared difference of their disparities, cut and weighed. The graph meets what the moves of C81 to C84 ask. When all disparities match, a frame starts from the first of the cheapest; it always starts from a real disparity. Refuted: that a pixel with a perfect match starts on a match (if its smallest disparity leads outside, it starts there, whatever the affinities); that a pixel without texture starts on a match (the divisor is one too large, so leaving the image is cheaper than any equal match before); that steps between neighbours are never free; that pair costs are a metric; that a region may cover the whole image.", "quantifier": "all grids, regions, disparity ranges, affinities, saliencies, medians and weights (rationals)", "why_tests_cant": "the defect needs pixels whose disparities leave the image, and shows up as a plausible disparity", "anchors": ["modules/imgproc/src/SegmMatcher.cpp: GraphModelData::GraphModelData, buildStereoModel, updateStereoModel, resetStereoLabelings", "modules/utils/include/litiv/utils/opengm.hpp: ExplicitScaledViewFunction"]}
{"id": "C98", "title": "Evaluation of several streams at once", "statement": "Evaluating packets of n images gives every stream exactly what counting its own images in order would give, and fails only when an image of some stream fails or a packet has the wrong size. Totals and averages over a tree of work batches are, stream by stream, those of the evaluation of that stream alone; totals keep the first name given to a stream; the reduced row is the mean over the streams and commutes with the average over batches. Totals exist exactly when the batches without packets come before all others and the others have the same number of streams; averages only need that of the parts with output. Refuted: a batch still to be processed can be left in a group (its totals are then refused, unless it comes first); the averages keep the stream names; the reduced row is the metric of the pooled counters.", "quantifier": "all numbers of streams, packets and batches, all trees of groups, all counters modulo 2^64, any way to count one image and to turn counters into metrics (exact rationals)", "why_tests_cant": "the failing order needs a group with batches processed in a particular order, and wrong pairing of streams only shows with several streams of different content", "anchors": ["modules/datasets/src/metrics.cpp: IMetricsAccumulator_<DatasetEval_BinaryClassifierArray>, IMetricsAccumulator_<DatasetEval_StereoDisparityEstim>, IMetricsCalculator_ accumulate and reduce", "modules/datasets/include/litiv/datasets/eval.hpp: DataEvaluatorWrapper_::processOutput, resetMetrics", "modules/datasets/include/litiv/datasets/metrics.hpp: MetricRetriever_::getMetricsBase, getMetrics"]}
{"id": "C99", "title": "Classifications evaluated on the graphics card", "statement": "The compute shader and the buffer of atomic counters of GLBinaryClassifierEvaluator report, for any order of the invocations, any size limit of the buffer of at least two frames, and any readings in between, the counters the processor gets over the same frames, plus one don't-care per frame for every invocation beyond the border of the frame. Rows of counters are never lost, counted twice or written out of range, and a frame beyond the announced count is refused. There are invocations beyond the border unless the height is a multiple of 8 and the width a multiple of 12, so the built-in validation against the processor fails for other sizes such as 320 by 240 (refuted). The buffer is empty for limits just above one frame although the constructor accepts them (refuted), a reset does not clear the card (refuted), and debug colours are those of getColoredMask up to one unit, not equal (refuted).", "quantifier": "all frames, ground truths and regions of interest, all orders of the invocations, all interleavings of frames and readings, all buffer limits", "why_tests_cant": "tests run on one card with one buffer limit, one schedule and a few frame sizes", "anchors": ["modules/datasets/src/eval.cpp: GLBinaryClassifierEvaluator::getComputeShaderSource, getMetricsBase", "modules/utils/src/opengl-imgproc.cpp: GLImageProcEvaluatorAlgo::GLImageProcEvaluatorAlgo, initialize_gl, apply_gl, getEvaluationAtomicCounterBuffer; GLImageProcAlgo::dispatch", "modules/datasets/include/litiv/datasets/eval.hpp: DataEvaluatorWrapper_ (GLSL)"]}
{"id": "C100", "title": "Packets handed to the graphics card", "statement": "The asynchronous consumer of IAsyncDataConsumer_ keeps packets, textures and indices in step: each call handles the packet announced by the previous call (the first one packet 0); the algorithm reads the image of that packet, the evaluator its ground truth, and the same packet is counted, saved and shown, whatever packets are announced, for any number of layers, with or without upload buffers. The loop of the applications handles every packet exactly once in order. Initialising again resumes at the last announced packet instead of starting over, and fails after a full run (refuted). One call too many handles the last packet again under a packet index that does not exist (refuted); a packet without ground truth is scored against that of two packets before (refuted); all packets are scored within the region of interest of the first (refuted).", "quantifier": "all data sets, all sequences of announced packets, all numbers of layers of at least two, both upload modes", "why_tests_cant": "tests follow the one loop of the applications on one card; the state involves nine matrices, three indices and two rings of textures", "anchors": ["modules/datasets/include/litiv/datasets/utils.hpp: IAsyncDataConsumer_<.,GLSL>::initialize_gl, apply_gl, pre_initialize_gl, pre_apply_gl, post_apply_gl", "modules/utils/src/opengl-imgproc.cpp: GLImageProcAlgo::initialize_gl, apply_gl; GLImageProcEvaluatorAlgo::initialize_gl, apply_gl", "modules/datasets/include/litiv/datasets/eval.hpp: DataEvaluatorWrapper_ (GLSL)::post_initialize_gl"]}
{"id": "C101", "title": "What the labels of the resegmentation of SegmMatcher cost", "statement": "In the resegmentation of SegmMatcher, a pixel whose disparity leads to a pixel of the other camera's region pays, for foreground, 200 times the clipped exponential of its distance to the mask, the colour cost of the foreground model, and half the distance cost of its counterpart (for background, with the distance to what is not in the mask); if both masks agree, only the colour is paid for the label they agree on; colour costs lie in 0..996, never rise with the densities and reach the bounds; all costs lie in 0..3996; different labels of neighbours cost nothing exactly where a gradient of at least 51 lies in either camera and never less than nothing, which is what the graph of C86 needs; counterparts are mutual where the labels agree. A pixel without counterpart is background by 100 whatever its mask and its colour say, and, since both layers are blurred as one image, the cost of a label in one frame depends on the densities of another (both refutations).", "quantifier": "for all image sizes, regions, masks, densities, gradients, disparity labels, layers, cameras and pixels", "why_tests_cant": "The costs are floor values of exponentials and logarithms of sizes, masks and densities; tests sample a few frames and see the resulting masks only, not where a cost saturates, vanishes or crosses from one frame to another.", "anchors": ["modules/imgproc/src/SegmMatcher.cpp: StereoGraphMatcher::calcShapeDistFeatures, updateResegmModel, cost_cast, getGradFactor LUT, SEGMMATCH_* constants"]}
{"id": "C102", "title": "Masks and confidence maps of EdgeDetectorCanny", "statement": "For a threshold t between 0 and 32767, EdgeDetectorCanny::apply_threshold marks exactly the pixels that a chain of adjacent local maxima above factor*t links to one above t; raising t only removes edges; negative thresholds stand for 100. EdgeDetectorCanny::apply counts, without saturating early, for how many of the thresholds 0..254 a pixel is an edge, so that more than k votes mean an edge at threshold k; the final normalisation keeps the order of any two pixels, gives 0 to the least and 255 to the greatest, and 0 to all if all are equal. Refuted: that thresholds lie between 0 and 1 as documented (all of them give the same mask) and that others are replaced by the default; that a confidence is comparable with a threshold or between images (the faintest edge gets 255 if there is no stronger one); that the blur covers the half size it computes (the half size is used as the size, for every deviation).", "quantifier": "for all images (gradient magnitudes and local maxima), thresholds, factors in (0,1), deviations and pixels", "why_tests_cant": "Monotony and the meaning of the votes compare the masks of 255 runs over all images; tests look at one image at one or two thresholds, and the documented range of thresholds is never noticed to be without effect.", "anchors": ["modules/imgproc/src/EdgeDetectorCanny.cpp: EdgeDetectorCanny::apply, apply_threshold", "modules/imgproc/include/litiv/imgproc/EdgeDetectorCanny.hpp: EDGCANNY_* constants, getDefaultThreshold"]}
{"id": "C103", "title": "Affinity maps from the graphics card are those from the processor, for some block sizes", "statement": "lv::computeDescriptorAffinity sends L2 distance maps to CUDA kernels when it can. For every interleaving of the threads of a block between barriers, every pair of descriptor maps, every list of at most 128 or 193 to 254 offsets, every pair of regions of interest (or none) and patches of size 1, 3, 5, 7, 11 and 15, the kernels end and every entry of their map is the one that the processor computes (the average distance of the matchable pixels in the patch, -1 without any). With 129 to 192 offsets the block has 192 threads, the halving reduction loses every third bin, and descriptors that differ can be at distance 0. For the other odd patches up to 31 the reduction loses fixed places of the patch (every third place for 9, 13 and 19), and an entry can be -1 where the processor gives a distance. More than 254 offsets or patches of 33 and more give nothing. Offsets are uploaded when they changed: one host thread always gets the offsets it asked for, but with two host threads one can get those of the other. Maps are only dispatched with both regions of interest or none; the device function itself lets a missing second region through.", "quantifier": "all descriptor maps, offsets, regions of interest, patch sizes, pixels, and all schedules of the threads in all blocks; all sequences of calls from host threads", "why_tests_cant": "Needs a graphics card, particular numbers of offsets or patch sizes, and a comparison of both implementations; device assertions are off in release builds, and schedules cannot be enumerated by running.", "anchors": ["modules/imgproc/cuda/affinity.cu", "modules/imgproc/cuda/affinity.cuh", "modules/imgproc/src/imgproc.cpp: lv::computeDescriptorAffinity"]}
{"id": "C104", "title": "Shape contexts on the graphics card match those of the processor", "statement": "For every shape and every block size, the descriptor map that the CUDA kernel of ShapeContext gives without normalization is the one the processor gives, whatever order the threads run in. With normalization this holds for up to 32 bins in the default block of 32 threads, except that a descriptor without votes becomes NaN where the processor gives the even descriptor. With more than 32 bins it holds if the threads of the warp go in lockstep; otherwise, for every number of bins above the number of threads (the default is 60 bins with 32 threads), and for blocks of 64, 128, 256... threads with bins for more than half of them, some orders give wrong lengths. Shared memory is enough for the default block only. With keypoints the whole map is filled on the card, not only the keypoints; keypoints half way between pixels may be put in other bins.", "quantifier": "for all shapes, look-up tables, numbers of bins, block sizes, contents of uninitialized shared memory and interleavings of the threads", "why_tests_cant": "a test sees the interleavings that one graphics card happens to choose; missing barriers go unnoticed on cards with implicit lockstep and fail on others", "anchors": ["modules/features2d/cuda/SC.cu: scdesc_fill_desc_direct", "modules/features2d/src/SC.cpp: ShapeContext::compute2, scdesc_fill_desc_direct, scdesc_norm, setBlockSize"]}
{"id": "C105", "title": "Superpixels on the graphics card are those of k-means around each pixel", "statement": "While a block has a thread for each pixel of a cell, that is for diameters up to 32 with 1024 threads in a block, SLIC::segment gives every pixel one thread, in the block of its own cell. The labels and centres are then those of k-means from the middle pixels of the cells, where a pixel goes to the first of the closest of the nine cells around it. They depend neither on the frames before, nor on the contents of the label surface, nor on the order of the threads. No thread is left without a label for images of any colours with a weight up to 35000; with a weight of 300000 threads add to superpixel -1. For larger diameters the launch is still accepted: with 90 the last two rows of a cell keep what the surface held, and with 33 the rows of the blocks drift from those of the cells, so that pixels get labels of cells far away, whatever the image. In the conversion to CIE L*a*b*, a is right, L is right unless the colour is very dark (black is -16), b is wrong for every grey between black and white.", "quantifier": "for all image sizes, frames, weights, numbers of iterations, sequences of earlier frames and orders of the threads", "why_tests_cant": "a test needs a graphics card, fixes its number of threads and sees one order of the atomic additions; the drift of the blocks shows only for diameters beyond 32 and tall images, and a wrong b only shifts the clusters", "anchors": ["modules/imgproc/cuda/SLIC.cu: kRgb2CIELab, kInitClusters, kAssignment, kUpdate, computeDistance", "modules/imgproc/src/SLIC.cpp: SLIC::segment, assignment, update, initialize"]}
{"id": "C106", "title": "Prefix sums of rows and transposition in compute shaders", "statement": "The compute shader of getComputeShaderSource_ParallelPrefixSum leaves in each pixel the sum of the pixels before it in its block, without the pixel itself, for blocks of any power of two and however the invocations between two barriers are interleaved. It uses its shared array within bounds exactly for powers of two; every other size passes the assertions and reads or writes outside. With the number of work groups stated in its comment, images wider than two blocks keep columns that are never written. The block merge adds the last pixel of every block to the next one: this is right for sums that include the pixel itself, and after the prefix sum shader it leaves out the last pixel of each earlier block. The transposition writes every pixel of the output, for every size of block and order of invocations.", "quantifier": "for all images, rows, powers of two, numbers of blocks, initial contents of the shared array and interleavings of the invocations", "why_tests_cant": "a test needs a graphics card and sees the interleavings of one driver; whether a missing barrier is harmless, or an access out of bounds is visible, depends on it", "anchors": ["modules/utils/src/opengl-shaders.cpp: GLShader::getComputeShaderSource_ParallelPrefixSum, GLShader::getComputeShaderSource_ParallelPrefixSum_BlockMerge, GLShader::getComputeShaderSource_Transpose"]}
{"id": "C107", "title": "Tiles of images in shared memory and the median blur of masks on the graphics card", "statement": "The preload function of getComputeShaderFunctionSource_SharedDataPreLoad fills the shared array of a work group with the image around the group, border included, once all of its invocations are through: for every size of group that passes the assertions, every border, and every interleaving of the atomic counters and stores; no pixel of the border is stored twice, no invocation waits for another. The binary median blur gives the same result from this array as from the image, and for odd sizes and masks of 0 and 255 it is the median of the square with zeros outside of the image. So the corner of a mask is cleared even if the whole mask is set, unlike with cv::medianBlur. LOBSTER blurs its mask in place: each result is the median of pixels that are as before or already blurred, those of the same group as before, so it is right where the square does not reach other groups; elsewhere it depends on the order of the groups, with the default sizes.", "quantifier": "for all images, sizes of groups and borders, roundings of the diagonal, initial contents of the array, interleavings of the invocations of a group, and orders of loads and stores of the groups", "why_tests_cant": "a test needs a graphics card and sees the orders that one driver chooses; results that depend on the order of the groups may be the same in every run on one card", "anchors": ["modules/utils/src/opengl-shaders.cpp: GLShader::getComputeShaderFunctionSource_SharedDataPreLoad, GLShader::getComputeShaderFunctionSource_BinaryMedianBlur", "modules/video/src/BackgroundSubtractorLOBSTER.cpp: BackgroundSubtractorLOBSTER_GLSL::getComputeShaderSource_PostProc"]}
{"id": "C108", "title": "Random numbers and random neighbours in shaders", "statement": "The tiny Mersenne twisters that initTinyMT32Generators sets up never get into the state in which all further numbers are zero, although the certification step of the reference code is left out: whatever rand() returns, after any number of draws. Pixels with different values of rand() never share a state after the same number of draws. Each step can be undone, so the numbers repeat from the first one on. The hash of urand is one to one on 32-bit words, and is zero only for the seed zero, which it never leaves. getRandNeighbor3x3 gives each of the eight neighbours for one remainder of the random number and never the pixel itself; it does not clamp, because the result of clamp is dropped: for every size of frame and every border it leaves the frame from some pixel.", "quantifier": "for all values of rand(), seeds, parameters, states, numbers of draws, positions, frames and borders", "why_tests_cant": "a test draws some numbers from some seeds; a state that stands still, or a seed that leads there, is one in 2^127 or one in 2^32", "anchors": ["modules/utils/src/opengl-shaders.cpp: GLShader::getShaderFunctionSource_urand, GLShader::getShaderFunctionSource_urand_tinymt32, GLShader::getShaderFunctionSource_getRandNeighbor3x3", "modules/utils/src/opengl.cpp: lv::gl::TMT32GenParams::initTinyMT32Generators"]}
{"id": "C109", "title": "LOBSTER on the graphics card keeps one layout of its model, decides as on the host and takes samples from background pixels; its initial textures mix red and blue", "statement": "For BackgroundSubtractorLOBSTER_GLSL with one or four channels: (a) refreshModel, getBackgroundImage and the compute shader address the same word for each sample, component and pixel; no two of these words coincide and all lie in the buffer. (b) The descriptor that the shader computes is the LBSP descriptor of that component. (c) For every order in which the invocations of a frame interleave, a pixel whose neighbours are all foreground is background exactly if at least the required number of its samples resemble it, as on the host. (d) After a frame each word of the model is as before, or was stored by a background pixel at most one pixel away and is its colour or its descriptor (the fourth component is zero); nothing else is written, and a frame that is all foreground changes nothing; every invocation ends. (e) Initialization does not fault, each sample is taken at one point of the image at most three pixels away. (f) In a uniform scene that is grey or has one channel, pixels well inside of the region stay background for ever and the background image shows the scene; the background image is always between the lowest and the highest sample. REFUTED: in a uniform scene in which red and blue differ by more than the texture threshold, all pixels are foreground for ever from the first frame on, since the initial texture compares the neighbours of one of them with the value of the other. REFUTED: refreshing only the background reads the foreground mask out of bounds for frames taller than wide, and for frames wider than tall refreshes a foreground pixel and skips a background pixel. REFUTED: a sample pairs a colour and a texture that were seen together.", "quantifier": "for all settings with one or four channels, frame sizes, regions that keep two pixels from the border, frames, models, random numbers, learning rates and interleavings of the invocations, and all sequences of frames", "why_tests_cant": "The interleaving of thousands of invocations on the card is not under the control of a test, and the shader writes the model of neighbours while they read it. That the mixed channels keep a coloured scene foreground for ever is a statement about all sequences of frames and random numbers; tests use grey or natural images, where it looks like noise.", "anchors": ["modules/video/src/BackgroundSubtractorLOBSTER.cpp:BackgroundSubtractorLOBSTER_GLSL::refreshModel", "modules/video/src/BackgroundSubtractorLOBSTER.cpp:BackgroundSubtractorLOBSTER_GLSL::initialize_gl", "modules/video/src/BackgroundSubtractorLOBSTER.cpp:BackgroundSubtractorLOBSTER_GLSL::getComputeShaderSource_LOBSTER", "modules/video/src/BackgroundSubtractorLOBSTER.cpp:BackgroundSubtractorLOBSTER_GLSL::getBackgroundImage", "modules/features2d/src/LBSP.cpp:LBSP::getShaderFunctionSource"]}
{"id": "C110", "title": "Tables of set functions: the check decides submodularity, linear terms reach every set once, normal form is reached without a failed assertion", "statement": "For the set functions of sospd, given as tables over the subsets of n < 32 elements: (a) CheckSubmodular returns true exactly if f(A+B) + f(A and B) <= f(A) + f(B) for all sets A and B. (b) AddLinear adds to every set the sum of psi over its elements, once, and SubtractLinear subtracts psi1 over the elements of the set and psi2 over the others; submodularity is not affected. (c) For a submodular table no ASSERT of Normalize fails: the result is nonnegative, zero for the empty and for the full set, submodular, and is f(S) - f(empty) + psi(S). REFUTED: that it is f(S) + psi(S) as the header says. (d) ZeroMarginalSet(s): adding elements of s to a set changes nothing any more, sets disjoint from s keep their values, and a submodular table stays so. (e) CheckUpperBoundInvariants returns true exactly if the bound is nowhere below, no single element is above all values, and the bound is submodular. REFUTED for floating types, for which the search of the highest value starts from the smallest positive number.", "quantifier": "all n below 32, all tables of integers, all linear terms, all sets; whatever __builtin_ctz(0) does", "why_tests_cant": "The claims range over all tables and all pairs of sets; the check only looks at pairs of elements, and that this is enough is an induction over sets.", "anchors": ["3rdparty/sospd/include/litiv/3rdparty/sospd/submodular-functions.hpp: CheckSubmodular, AddLinear, SubtractLinear, Normalize, ZeroMarginalSet, CheckUpperBoundInvariants", "modules/imgproc/src/SegmMatcher.cpp: SubtractLinear"]}
{"id": "C111", "title": "Submodular bounds of set functions are bounds and submodular; the early finish never does anything, and one bound counts the zeros of zero", "statement": "(a) NextPerm yields the next larger word with as many bits set, and the loops built on it visit each set of k elements exactly once. (b) SubmodularLowerBound always ends; its result is submodular and nowhere above the table; the value returned is the largest decrease and is zero exactly if the table was submodular; a value that is lowered is lowered just enough for some pair of its elements. REFUTED: with early_finish the result is submodular (it stops after the sets of one element, never changes the table and returns zero). (c) When UpperBoundCVPR14 returns, the table is submodular, nowhere below the original, and unchanged for the empty and the full set; each round raises some value; for two elements one round is enough and raises by no more than needed up to rounding. REFUTED: it is free of undefined behaviour (every table that is not submodular calls __builtin_ctz(0)). (d) When ChenUpperBound returns (it calls exit after 1000 rounds), the same holds, and for two elements it is exact.", "quantifier": "all n below 32, all tables of integers, all numbers of rounds, all values of __builtin_ctz(0)", "why_tests_cant": "The claims range over all tables; the order of visits is a property of 32-bit words that tests sample, and termination and undefined behaviour do not show in results.", "anchors": ["3rdparty/sospd/include/litiv/3rdparty/sospd/submodular-functions.hpp: NextPerm, SubmodularLowerBound, UpperBoundCVPR14, ChenUpperBound"]}
{"id": "C112", "title": "Cliques of the flow graph: capacities, pushes, tight sets, bounds, and the terminals", "statement": "In the submodular flow solver, ExchangeCapacity(u,v) of a clique of up to 31 nodes is the least value of the reparametrized table over the sets that hold u and not v (all of them are visited). Push(u,v,delta) takes delta from the sets with u alone, adds it to those with v alone, touches nothing else, and leaves the sum of table and reparametrization (the energy told) as it was; the table stays nonnegative, submodular and zero for none and all exactly if delta is no more than the capacity; it takes delta off the capacity from u to v and adds it to that from v to u. ComputeMinTightSets finds for each node the least set of value zero holding it, and NonzeroCapacity(u,v) is true exactly if ExchangeCapacity(u,v) is positive, for u other than v; not so for an arc from a node to itself (refuted). All this holds after any number of pushes within capacity. UpperBoundCliques makes a normal table that, with the flow to the sink, tells the submodular bound up to a constant for all labellings; with either bound of the code it is nowhere below the energy of the clique; with fixed nodes it may be (refuted). AddUnaryTerm keeps the cost of both labels and never lowers a terminal; the start of IBFSInit fills one of the two arcs of each node, exceeds none, and its ASSERT never fails. A clique without nodes reads outside the table, and ResetFlow writes m_phi_si and m_phi_it at the indices of source and sink, which do not exist: every call is out of bounds (refuted).", "quantifier": "for all tables, cliques of up to 31 nodes, nodes, amounts, sequences of pushes, labellings, terminal weights, and graphs made by AddNode and ResetFlow", "why_tests_cant": "The answers are minima over exponentially many sets, and the least tight set is only the one of smallest number because tight sets of a submodular table are closed under intersection; a test checks a few tables, and writes two elements past a vector often pass unseen.", "anchors": ["3rdparty/sospd/include/litiv/3rdparty/sospd/sos-graph.hpp: SoSGraph::AddNode, AddTerminalWeights, ClearTerminals, ResetFlow, UpperBoundCliques, IBFSEnergyTableClique::ExchangeCapacity, Push, ComputeMinTightSets, NonzeroCapacity, ResetAlpha", "3rdparty/sospd/include/litiv/3rdparty/sospd/submodular-ibfs.hpp: SubmodularIBFS::AddUnaryTerm", "3rdparty/sospd/include/litiv/3rdparty/sospd/flow-solver.hpp: BidirectionalIBFS::IBFSInit"]}
{"id": "C113", "title": "Augmenting paths and minimum cuts in the flow graph of cliques", "statement": "BidirectionalIBFS::Augment pushes the least of what the arcs of the path let through and of the capacity left at its two terminals; its ASSERT fails exactly if that is not positive; otherwise, for every labelling, what is left of terminals and cliques drops by just this amount, only the flow at the two ends of the path changes, and each clique keeps the energy it tells. If from no arc of the path to a later one in the same clique anything could be pushed directly, all clique tables stay nonnegative and submodular and their tight sets right, after any number of augmentations; along a path with such a shortcut a table becomes negative (refuted). If no arc with NonzeroCapacity leads from the nodes with label 1 to those with label 0, and the terminals between are full, then these labels have the least energy of all labellings: after UpperBoundCliques and IBFSInit on a graph with any number of cliques and any such augmentations, compute_energy of the labels is no more than that of any other labels, for the submodular tables the bound has made. ComputeEnergy is the constant, plus c_it of nodes with label 1, c_si of all others, and each clique at its set of nodes with label 1. ArcsBegin to ArcsEnd visits each clique and each index once; Reverse exchanges source and target and undoes itself for cliques of different nodes; operator< does not order the arcs of one clique (refuted). ComputeMinCut labels nodes by their tree, free ones by the direction of the search, and fails for orphans.", "quantifier": "for all graphs with cliques of up to 31 nodes, all tables, terminal capacities, trees, paths, sequences of augmentations along paths without shortcuts, and labellings", "why_tests_cant": "That the last cut is a minimum is a statement about all labellings, exponentially many, and after all histories of pushes; a path that uses a clique twice breaks it silently, for few tables only.", "anchors": ["3rdparty/sospd/include/litiv/3rdparty/sospd/flow-solver.hpp: BidirectionalIBFS::Augment, Push, IBFSInit, ComputeMinCut", "3rdparty/sospd/include/litiv/3rdparty/sospd/sos-graph.hpp: SoSGraph::ArcIterator, ArcsBegin, ArcsEnd, ResCap, NonzeroCap, UpperBoundCliques, IBFSEnergyTableClique::ComputeEnergy", "3rdparty/sospd/include/litiv/3rdparty/sospd/submodular-ibfs.hpp: SubmodularIBFS::ComputeEnergy"]}
{"id": "C114", "title": "Multilabel energies and their primal-dual moves", "statement": "MultilabelEnergy: computeEnergy is the sum of the unary costs and of all cliques; addVar keeps it, addUnaryTerm and addClique (also for a clique of one variable) add just what they are given at every labelling; PottsClique gives the first cost exactly if all labels are the same. addConstantTerm never changes an energy (refuted). SoSPD: InitialLabeling takes the first label of least unary cost; InitialDual splits nonnegative clique energies among their variables without rest, but not for fractional types (refuted); ComputeHeight and ComputeHeightDiff sum all duals of a variable, and with tight duals the heights of the labels sum to the energy; PreEditDual gives the flow graph, at each set of variables, the clique energy after moving that set less the duals; PostEditDual makes the duals tight again and fails only if an energy is above its duals. If the submodular bound is nowhere below the tables and equal at the empty set (as ChenUpperBound is), and the flow of C113, with fixed variables and after any number of augmentations, ends in a cut that nothing can cross, then PostEditDual does not fail, every variable has its old or the proposed label, and the energy has not risen. Solve keeps this for any proposals and any number of rounds, and stops early only if a proposal equals the labels; without a limit it does not end at all once the optimal labels are not all the same, for alpha-expansion as for proposals by height (refuted). GetLabel before Solve is 0, not -1 (refuted). Alpha-expansion proposes each label once in as many rounds as there are labels; the height proposal takes a label of largest total of positive height differences.", "quantifier": "for all numbers of variables, labels and cliques, all costs, clique functions, labels, duals, proposals, bounds, flows and numbers of rounds", "why_tests_cant": "That no round raises the energy follows only from the whole chain of bound, flow, cut, dual update and correction, for every energy and every path the solver took; that Solve does not end is about all numbers of rounds.", "anchors": ["3rdparty/sospd/include/litiv/3rdparty/sospd/multilabel-energy.hpp:MultilabelEnergy,PottsClique", "3rdparty/sospd/include/litiv/3rdparty/sospd/sospd.hpp:SoSPD"]}
{"id": "C115", "title": "Frame subsets, temporal windows and the packets that are evaluated", "statement": "With bLoadFrameSubset, LITIV 2018 and VAP load exactly the frames no farther than nEvalTemporalWindowSize from a frame named in the subset file, in order and once, and evaluate the named ones; loading fails only for unreadable lines, frames out of range or a file without frames. With bEvalOnlyFrameSubset alone LITIV 2018 loads all frames. isTemporalWindowBreak, for a loaded subset with a window, is true exactly for packets whose previous frame is not loaded; between breaks packets are consecutive frames, the window around a named frame is never broken, and the index behind the last packet is at a break. It is not always false otherwise, but true for packet 0 (refuted), nor is that of Bilodeau 2014 (refuted); for VAP with bEvalOnlyFrameSubset alone it looks up packets of all frames among those of the subset, and tells breaks between neighbouring frames (refuted). The loop of cosegm pushes each packet just once and in order if the end of the batch is at a break, whatever other breaks there are, and asks for outputs of layers that exist and were made since the last reset; if all frames are loaded, the last ones, as many as the temporal depth, are never pushed (refuted).", "quantifier": "for all subset files, window sizes, numbers of frames, breaks, temporal depths and packets", "why_tests_cant": "Windows overlap, touch each other or the ends in any way, and the pushes depend on all breaks; tests use a few datasets that are not part of the repository.", "anchors": ["modules/datasets/include/litiv/datasets/impl/litiv-stcharles2018.hpp:isTemporalWindowBreak,parseData", "modules/datasets/include/litiv/datasets/impl/vap-trimod2016.hpp:isTemporalWindowBreak,parseData", "modules/datasets/include/litiv/datasets/impl/litiv-bilodeau2014.hpp:isTemporalWindowBreak", "apps/cosegm/src/main.cpp:Analyze"]}
{"id": "C116", "title": "k of n numbers at random, in increasing order", "statement": "kOfN(k, n, values) writes just k increasing integers of [0, n), whatever integers its recursive way draws and whichever of its two ways is chosen, and writes nothing else. In the recursive way no half ever gets more numbers than it has, the depth is at most n, and every increasing choice can come out. In the sequential way every choice comes out with the same chance k!(n-k)!/n!, and just k numbers are written if the real numbers drawn are below 1; the distribution ends at the number after 1, so that 1 itself may be drawn, and then a number that has to be taken is left and fewer than k are written (refuted).", "quantifier": "for all k <= n, all numbers drawn, all arrays and offsets", "why_tests_cant": "The numbers are random, seeded by the clock; 1 is drawn once in 2^53 or so, and a test sees a few draws of a huge number of them.", "anchors": ["3rdparty/bsds500/src/kofn.cpp:_kOfN_largeK,_kOfN_smallK,kOfN", "modules/datasets/src/impl/BSDS500.cpp:accumulate"]}
{"id": "C117", "title": "Edge pixels matched with the ground truth as an assignment problem", "statement": "In the benchmark build, BSDS500 matches the edge pixels of a mask with those of each ground truth by a cheapest perfect match of a graph. Its nodes are just the edge pixels that have one of the other side within the distance, its real edges just the pairs of them within it, with the distance rounded to a hundredth as weight. The graph fills its rows exactly, never names a node that does not exist, joins no two nodes twice and always has a perfect match. Whatever perfect match the solver returns, the pairs recorded are edge pixels within the distance, no pixel is in two of them, and the counts are within those of both masks, as the assertions want. A cheapest match lacks at most the part r/w of the pairs of any match that needs no overlay edge (r the largest real weight, w that of outliers). It does depend on the outliers drawn: for any masks of n >= 7 nodes each there are draws with which at most six pairs are recorded, so that a mask equal to its ground truth does not always get full score (refuted).", "quantifier": "for all masks, sizes, distances, outlier weights, draws of outliers and perfect matches", "why_tests_cant": "The benchmark build is not tested at all, the draws are seeded by the clock, and a test cannot go through draws and masks.", "anchors": ["modules/datasets/src/impl/BSDS500.cpp:accumulate", "3rdparty/bsds500/src/kofn.cpp:kOfN"]}
{"id": "C118", "title": "Ground truth of a packet by the number in its file name", "statement": "A number behind the first occurrence of the prefix of a file name is read as it is spelt. PETS gives a frame the last ground truth file with its number and none to other frames. Wallflower accepts a batch only with its script, exactly one ground truth and some inputs; the inputs are all the other files in their order, with .bmp first at the end of each, and the one ground truth has the number in its name. LITIV 2018 takes a path with five digits in a row at one place only for the frame that they spell; its packets with a ground truth in any stream have one entry each in their order, the others none, and a subset keeps the first path of each of its frames. Refuted: that files without the prefix get no index (npos plus the size of the prefix wraps around), and that the directory does not matter (a prefix or five digits in its name count first).", "quantifier": "for all lists of paths, prefixes, subsets of frames and numbers of streams", "why_tests_cant": "The datasets are not available to tests, and a test has one list of paths in one directory.", "anchors": ["modules/datasets/include/litiv/datasets/impl/PETS2001.hpp:parseData", "modules/datasets/include/litiv/datasets/impl/Wallflower.hpp:parseData", "modules/datasets/include/litiv/datasets/impl/litiv-stcharles2018.hpp:parseData"]}
{"id": "C119", "title": "The schedule of moves of the stereo and resegmentation inference", "statement": "SegmMatcher tries the stereo labels in a fixed order, the don't care label first and the others by falling counts, one move each, round and round, and never more than the allowed number of moves. A resegmentation follows the first move of each round and no other; it moves to the two labels in turn, starting with the background the first time, within its own limit. If the loop ends for lack of changes, the last round tried all labels without changing a label or the stereo model. If no stereo move raises the energy and the resegmentation alone does not, the assertion on the energy never fails. Refuted: that the functor given to std::sort is a strict order (the don't care label is before itself); that the stereo model is updated whenever a resegmentation changed labels (as configured only changes of every second move count); that all labels are tried (a segmentation that needs no change ends the loop after the single move to the first label).", "quantifier": "for all numbers of labels, orders, limits, and whatever the moves do", "why_tests_cant": "The inference needs images, features and minutes per frame, and a test sees one run, whose result looks plausible even if labels were never tried.", "anchors": ["modules/imgproc/src/SegmMatcher.cpp:infer", "modules/utils/include/litiv/utils/cxx.hpp:sort_indices"]}
{"id": "C120", "title": "Views of matrices: squeezed, basic, cut, compared and concatenated", "statement": "squeeze keeps all scalars of a matrix in their order, whatever its steps, and leaves just the sizes above 1 (1 by n for one of them, 1 by 1 for none; 2d and empty matrices keep theirs). getSubMat gives a view of the same memory, cut along one dimension to the range asked for, and refuses ranges outside. isEqual answers whether sizes, channels and all scalars are equal, for views with any steps, or refuses. getBasicMat and isNearlyEqual do for continuous matrices. concat puts image k, resized to the first one's size if it has another, in part k of the result. Refuted: getBasicMat of a view with gaps has other elements than the view, since it drops the steps; so isNearlyEqual may reject equal views, and accept views however different; getSubMat lets negative dimensions through to a write outside of its ranges.", "quantifier": "for all dimensions, sizes, steps, channels, contents, tolerances and lists of images", "why_tests_cant": "Tests compare small matrices that own their memory; whether steps are respected shows only for views, over all shapes of them.", "anchors": ["modules/utils/include/litiv/utils/opencv.hpp:squeeze", "modules/utils/include/litiv/utils/opencv.hpp:getBasicMat", "modules/utils/include/litiv/utils/opencv.hpp:getSubMat", "modules/utils/include/litiv/utils/opencv.hpp:isEqual", "modules/utils/include/litiv/utils/opencv.hpp:isNearlyEqual", "modules/utils/include/litiv/utils/opencv.hpp:concat"]}
{"id": "C121", "title": "Values between pixels, and differences along a flow", "statement": "getSubPix with the default border gives the bilinear interpolation of the image continued by its border pixels, for all places except those less than one pixel before the first row or column; at pixels it gives their value; integral results are nearest to the interpolated value and, from the first pixel on, between the least and the greatest pixel. Before the last row and column all borders agree and read only pixels of the image. computeTemporalAbsDiff of bytes is 0 where the flow leads to the same value, and at most 255 where it leads to no place before the first row or column. Refuted: between -1 and 0 the coordinate is truncated to 0, so the value is extrapolated (-127.5 for pixels 0 and 255 at -1/2, converted to a byte), jumps at -1, and differences of bytes exceed 255; BORDER_CONSTANT reads column or row -1 even for pixels of the last column or row.", "quantifier": "for all images, places, subdivisions and flows", "why_tests_cant": "Tests sample some places inside of an image; which places are wrong, and that the others are right, is a claim about all of them.", "anchors": ["modules/utils/include/litiv/utils/opencv.hpp:getSubPix", "modules/imgproc/src/imgproc.cpp:computeTemporalAbsDiff"]}
{"id": "C122", "title": "Ground truths of one image stacked into a mask", "statement": "The BSDS500 loader returns for an image one mask with all its ground truths below each other, in order, each of the size of the scaled image and resized only if it has another size. It returns one exactly if all ground truths have a size of the dataset and the fraction of a row lost by scaling, summed over the ground truths, is below one row; so always for whole scale factors. The check of names accepts exactly the lists where the last component of each folder is inside of the last component of the image at the same place. Refuted: at half size no image with two or more ground truths can be loaded, since the expected height is scaled after multiplying and the stacked height before; folders of another image pass the check of names when their name is inside of that of the image.", "quantifier": "for all scale factors, images, lists of ground truths and names", "why_tests_cant": "Tests load some images at full size; which scale factors fail depends on arithmetic over all of them.", "anchors": ["modules/datasets/include/litiv/datasets/impl/BSDS500.hpp:parseData", "modules/datasets/include/litiv/datasets/impl/BSDS500.hpp:getRawGT"]}
{"id": "C123", "title": "Algorithms that switch between CUDA and the processor", "statement": "After any sequence of constructions, initializations and switches of any number of algorithms: one that reports to be parallel is of type CUDA and holds the number and information of a device that exists and has the capabilities; one without a device has number -1, no information, and refuses to be enabled; one with a device can be switched on and off with nothing else changed. Initialization succeeds exactly for usable devices, and if it fails the algorithm loses the device it had. Where no device is usable nothing is ever parallel. In programs that name a single device, it is the current one while any algorithm is parallel. Refuted: the current device is shared, so an algorithm stays parallel with device 0 while another one's initialization, even a failed one, has made device 1 the current one.", "quantifier": "for all drivers, sequences of calls and numbers of algorithms", "why_tests_cant": "A property of all call sequences, on machines with several or no devices, which tests do not have.", "anchors": ["modules/utils/include/litiv/utils/algo.hpp:tryInitEnableCUDA", "modules/utils/include/litiv/utils/algo.hpp:enableCUDA", "modules/utils/include/litiv/utils/algo.hpp:isParallel", "modules/utils/include/litiv/utils/algo.hpp:getParallelAlgoType", "modules/utils/src/cuda.cpp:init"]}
{"id": "C124", "title": "Sizes, tiles and cursor of windows", "statement": "The size of a window within the limit is kept, and otherwise keeps its proportions but for less than a pixel. With a limit at least as wide as high, nothing is enlarged, and the result is within the limit unless the content is wider than high, wider than the limit, and its scaled height is above the limit; within square limits it always is. The window is a grid of equal whole tiles. Each mouse event in the window belongs to exactly one tile, at the internal position reported, and just this tile is marked; the cursor is drawn exactly for events in the window. The album shows after any keys the image that is as many ahead, cyclically, as keys for next less keys for previous. Refuted: 3000x2900 is shown as 2560x2474 under the default limit 2560x1440; with a limit of 100x1000, 200x300 is enlarged to 666x1000; content one pixel high and wider than the limit is left with tiles of no height.", "quantifier": "for all limits, sizes, grids, events and sequences of keys", "why_tests_cant": "Windows are not opened in tests, and the failing sizes are special.", "anchors": ["modules/utils/src/opencv.cpp:display", "modules/utils/src/opencv.cpp:displayAlbumAndWaitKey", "modules/utils/src/opencv.cpp:onMouseEventCallback"]}
{"id": "C125", "title": "Regions of video cosegmentation", "statement": "Initialization succeeds exactly if each image is non-empty and its region, if given, has its size and a pixel away from the border (without one, the image must have such a pixel). Then each stored region is the one given, or the whole image, with zeros close to the border; the counts are the numbers of pixels of the region before and after this and of the image, so that 0 < final <= original <= total. Setting regions succeeds exactly if each is non-empty, has a non-zero pixel, and is at least two borders high and wide; then the array passed equals what is stored, the cleaned regions, and the counts are kept; otherwise nothing stored changes. Reading the regions of an initialized algorithm and setting them again succeeds and changes no pixel. Refuted: setting accepts regions that are left without pixels, with the counts out of date, and of another size than the image; a failed initialization leaves new regions for some inputs and old ones for others; a failed setting can have changed the array passed.", "quantifier": "for all borders, numbers of inputs, image sizes, regions and previous states", "why_tests_cant": "The repository has no implementation of this interface to test, and the failing cases need regions close to borders or a failure at a later input.", "anchors": ["modules/video/include/litiv/video/VideoCosegmentationUtils.inl.hpp:validateROIs", "modules/video/include/litiv/video/VideoCosegmentationUtils.inl.hpp:setROIs", "modules/video/include/litiv/video/VideoCosegmentationUtils.inl.hpp:getROIsCopy", "modules/video/include/litiv/video/VideoCosegmentationUtils.inl.hpp:initialize_common"]}
{"id": "C126", "title": "Texture formats, stacks of images, listings and preallocated files", "statement": "A texture format chosen for a supported matrix type is read back as this type, except for three bytes per pixel; its channels agree with the type, and it is integral exactly if asked for and not of floats. Normalized and integral formats invert each other where both exist and keep the matrix type. Copying a stack of images out of a buffer is defined exactly if neither the size of an image nor the offset of the last one overflows int; then image k has the k-th part of the buffer, byte by byte. The listing of a non-empty shader source has exactly its lines, each after its number from 1. Preallocating a file ends, keeps what it holds and appends zeros up to the size asked for, whatever the limit of one write; larger files are kept. Refuted: three bytes per pixel come back as four; nine images of 4096x4096 with four floats overflow although each one fits; sizes of 2^63 and more add nothing.", "quantifier": "for all supported formats, counts and sizes of images, buffers, sources, files and sizes asked for", "why_tests_cant": "The textures are not tested, and the test of files makes one of 1024 bytes without looking at it; overflows need gigabytes.", "anchors": ["modules/utils/include/litiv/utils/opengl.hpp:getInternalFormatFromMatType", "modules/utils/include/litiv/utils/opengl.hpp:getMatTypeFromInternalFormat", "modules/utils/include/litiv/utils/opengl.hpp:getNormalizedIntegralFormatFromInternalFormat", "modules/utils/include/litiv/utils/opengl.hpp:getIntegralFormatFromInternalFormat", "modules/utils/src/opengl.cpp:deepCopyImages", "modules/utils/src/opengl.cpp:addLineNumbersToString", "modules/utils/src/platform.cpp:createBinFileWithPrealloc"]}
