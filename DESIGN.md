# Formal model of litiv: design

Source: `/repo` (plstcharles/litiv at the pinned commit). Nothing of `/repo` is built or run; the model is
written by reading the C++ text. Everything is in Rocq/Coq 8.16.1 under `rocq/theories`.

## Layout

| directory | content |
|---|---|
| `theories/Lib` | general lemmas (lists, arithmetic, sums, transition systems) |
| `theories/Model` | definitions transcribed from the C++, each with a file/line citation |
| `theories/Spec` | small specifications written without using the model |
| `theories/Proofs` | lemmas |
| `theories/Properties` | the property theorems only, each closed by `exact`, with `Print Assumptions` and non-vacuity `Example`s |

Conventions: fixed-width integers are `Z` or `N` reduced explicitly with `mod 2^n` where the C++ type wraps; undefined
behaviour (out-of-bounds access, signed overflow, use after free) and exceptions are distinct outcomes
of the model, never silently excluded. Floating point code whose property is algebraic is modelled over `Q` or `R`
(exact arithmetic); each such file says so.
Concurrent classes are labelled transition systems whose steps are the critical sections / atomic
accesses of the C++ code, and the theorems quantify over all reachable states (every schedule).
A claim that is false of the code is kept in `properties.jsonl` and answered with a theorem
`..._refuted` giving a witness, next to the strongest variant that holds.

## Plan per property

| id | model | proof |
|---|---|---|
| C01 | `get_next_pow2` on N with 32-bit masks | bit-smearing lemma: after the or-shifts all bits below the top bit are set |
| C02 | popcount LUT by bytes, `hdist` = popcount of xor, byte arrays with wrapping accumulator | induction on bytes; triangle by bitwise case analysis |
| C03 | `L1dist` with explicit result width | arithmetic + induction on channels |
| C04 | `L2sqrdist` with int overflow as UB outcome | nonlinear arithmetic |
| C05 | `cdist` integer version with overflow outcome | Cauchy-Schwarz over Z, induction on channels |
| C06 | `find_nn_index` loop | loop invariant |
| C07 | `interp1` over Q | pass-through by induction; refutation by witness |
| C08 | `linspace` over Q | induction |
| C09 | `expand_bits`, `extend_bits` on N | testbit characterisation |
| C10 | LCG step on Z mod 2^32 | Hull-Dobell argument by induction on the exponent |
| C11 | `determinant`/`invert` over Q | ring identities; aliasing modelled as a memory |
| C12 | vector helpers | induction, permutation lemmas |
| C13 | string helpers over character lists | induction, round trip |
| C14 | `putf` with buffer length parameter | case analysis on the length |
| C15, C16 | AutoBuffer over a block memory with allocation state | refinement invariant over operation lists; witnesses for the hazards |
| C17 | allocation size rounding | arithmetic |
| C18, C19 | Semaphore / WorkerPool transition systems with explicit mutex and condition variable wait sets | inductive invariants, progress |
| C20 | LUT over Q with index into a list | arithmetic on floor |
| C21, C24, C32 | lanes as bounded integers, instructions one by one | arithmetic per lane, exhaustive only where the domain is a byte and lifted by a lemma |
| C22 | coordinate functions | arithmetic, counting lemma for kernels |
| C23 | `MatSize_` lists | induction |
| C25 | HSL over R/Q | case analysis on sectors |
| C26, C27 | byte-level writer/reader, pack/unpack | round-trip by induction; corrupted header witness |
| C28, C29 | pixel-index functions | arithmetic on bounds |
| C30 | angular/radial bin arithmetic | arithmetic; witness |
| C31 | subset enumeration and recursive coefficients | Moebius inversion by induction on the variable count |
| C33, C34 | masks and offsets as in code, threshold with saturation and int conversion | counting, arithmetic |
| C35, C36 | histogram as finite map, mutual information over R | counting; Gibbs inequality through ln x <= x-1 |
| C37, C38 | one ZS pass on pixel functions, outer loop | decreasing pixel count, fixpoint; OOB as outcome |
| C39, C40 | histogram scan; integral image recurrence | order statistic; prefix-sum identity |
| C41, C42 | block scan; stack-based flood fill | geometric invariant; reachability closure invariant |
| C43 | unsigned border arithmetic of pyramid levels | witness and sufficient condition |
| C44-C47 | counters, ratios, group averages, error lists | induction, field arithmetic |
| C48, C49 | precacher thread + client over a byte ring buffer | inductive invariant of the transition system |
| C50, C51 | writer queue with workers | inductive invariant; witness schedules |
| C52-C54 | counter/promise, group trees, name formatting | induction, injectivity of decimal padding |
| C55-C57 | sample models, feedback updates, ROI tables | history invariants |
| C58-C60 | filters, warp grid, aligned steps | induction, arithmetic |
| C61-C63 | prefix sums with wrapping accumulator; digit counts; lower-cased comparison | induction; strict weak order by the lexicographic order of the lowered strings |
| C64 | earth mover's distances over exact rationals | lower bound by summing what crosses every edge, attained by the quantile coupling; on the circle by cutting at the median edge; median by sorted pairing; metric laws from the edge sums |
| C65 | random palette and colour lookup of getUniqueColorMap | induction over samples and divisions; the 3600 shades are compared exhaustively by computation |
| C66, C67 | difference images; propagation of gradients through the levels | arithmetic on bytes; in-place update invariant |
| C68 | greying of archived masks | pixelwise case analysis, then the counters of C44 |
| C69 | PBAS frames: samples, gradients, normaliser, random updates | invariant over pixels and frames; refinement of the pixel loop of C56 |
| C70 | SLIC connectivity scan with its flood fill | flood fill computes a component; invariant of the raster scan: labels given so far are unions of components, connected |
| C71 | threshold sweep, matching and score search of BSDS500 | loop invariant of the shared in-place threshold map; counting; optimality by induction |
| C72 | LOBSTER initialization, frames, refresh and background image on flat buffers | bounds of every access; invariant over pixels, samples and histories (provenance); decision per pixel; uniform scenes; witnesses for border, fraction, rate and 4 channels |
| C73 | Gaussian mixture learning, densities, and use on images; dimensions 1 to 3; densities over the reals | invariant of the sample sums; covariance as a sum of squares, so positive definite; closed-form inverses by field; folds over components |
| C74 | rootSIFT and sparseness over the reals | sums over lists; Cauchy-Schwarz by the variance, its equality cases |
| C75 | SuBSENSE initialization, frames and refresh on flat buffers, with the loop of C56 at each pixel | outcome classification of every call; refinement to C56; invariant over pixels, samples and histories (provenance, table of thresholds); decision per pixel; uniform scenes; learning rates; witnesses for first row, region, adapted thresholds and infinite rate |
| C76 | PAWCS word dictionaries as stores of cells with slots and generations (Model/WordDict.v); initialization, refresh, frames on flat buffers (Model/Pawcs.v) | store invariant preserved by every operation, through each pixel, frame and event (induction over histories); witness by computation for repeated initialization |
| C77 | PAWCS frame loop | per-pixel relational specification `step` (decision, learning), `walk` over the pixels by induction; consequences for familiar and unseen pixels; witness for 8-bit sums |
| C78 | PAWCS feedback variables, table of thresholds | invariant over histories; witness for the override rate |
| C79 | PAWCS background images | weighted means of the words of reached states; witnesses by computation |
| C80 | opengm.hpp factorReducer | signed subset sums over bit masks; proved by induction on the order (inclusion and exclusion) that they telescope to the change of the cost |
| C81 | SegmMatcher stereo labels and association buffers as flat arrays | invariant relating labels, counts and lists, kept by each removal and addition, hence by resets and moves |
| C82 | SegmMatcher energy, cost tables, terms of a move | means of non-decreasing additions bound each column's change; sums exchanged between columns and pixels; witnesses for the two limits |
| C83 | SegmMatcher labels and outputs | direct; witness by computation |
| C84 | projection of disparities to the other camera, occlusion maps | invariants over rows; columns from the right; witnesses by computation |
| C85 | primal-dual moves: starting duals, problem, correction | Gray code by bits; rows of bumps; sums exchanged between nodes and cliques |
| C86 | resegmentation graph and its table of memberships | numbering by induction; layers of indices by division; witness by enumeration |
| C87 | DASC descriptors with the recursive filter | loops to recurrences; explicit weights by induction; Cauchy-Schwarz for means |
| C88 | shape context extractor with absolute radii, as a state machine over calls | folds to counts; invariant of the stored keypoints; monotone ring bounds over the reals |
| C89 | affinity maps of images and descriptor maps | writes of the loops; patches as filters of the image; a permutation of the matched pixels for the symmetry |
| C90 | the conversions between pixels and angles of the virtual PTZ camera, and the translation of bounding boxes | rotation matrices over the reals against a pinhole camera with an orthonormal frame; polar form of atan2 and acos |
| C91 | the state of the virtual PTZ camera under all calls, with clock readings as inputs; GTTranslator's updates | invariant over sequences of calls; fmod over the reals and distances on a circle |
| C92 | the virtual PTZ evaluator: frame range, sessions, lost frames, errors, overlaps and ratios | ghost history of what was compared, invariant over calls; finite sets of pixels for the overlap; an induction builds sessions of a still camera |
| C93 | LSS: correlation map, bins, output memory of the dense and keypoint variants, normalization | flat memory with unwritten cells, last-write lemmas; least element of each bin by induction over the lookup map; uniqueness of descriptors |
| C94 | Keypoint filters, descriptor positions, reshapeDesc, lv::validateKeyPoints | coordinates as rationals with the three roundings of the code; floor and nearest bounds; fold invariant for the reshaped map |
| C95 | default image and video producers: parsing, information, raw and converted packets, the loader's last packet | invariant of reader position and expected index over request histories; floor bounds for nearest resizing; loop invariant for the list of readable files |
| C96 | array loaders over numbered packet buffers, feature files with the last packet held, output archives by stream | invariants over call histories on top of the packing lemmas of C27; ghost predicate of the last loaded index |
| C97 | SegmMatcher costs of disparities and of pairs, regions accepted by the constructor | fold invariant (sum and number of matches so far), then the least-cost starting label of C81; witnesses of three to five pixels |
| C98 | array and stereo accumulators and calculators, packets, totals and averages over trees of batches, reduced rows | generic in the kind of value; invariants on shapes, projection of the tree to one stream refining the single-stream evaluation of C44-C46 |
| C99 | the shader on one pixel with 32-bit counters, the grid of invocations in any order, the sizing, filling, copying and reading of the counter buffer, the final sums, the debug colours | invocations outside read a zero region of interest, so counts over the padded grid split into the frame and don't-cares; invariant on blocks for any list of operations; the sizing by induction on halvings |
| C100 | indices, held images and texture rings of the asynchronous consumer, its algorithm and its evaluator; images are abstract | invariant: the layer to use next holds the packet announced last; induction on the calls |
| C101 | calcShapeDistFeatures, the unary, pairwise and temporal costs of updateResegmModel, the look-up table of gradient factors, getOffsetColIdx (Model/ResegmCosts.v, over the reals; costs unbounded integers) | distances as minima over the image; bounds by monotonicity of exp and ln and powers of 2 and 10; scene_of yields the scenes of C86, whose hypothesis is proved; witnesses for the two refutations |
| C102 | apply, apply_threshold and the kernel size of EdgeDetectorCanny; cv::Canny from its magnitudes and maxima, cv::normalize (Model/Canny.v) | growth reaches a fixpoint within as many rounds as pixels; induction over chains; votes of a downward closed set; rounding keeps differences of at least one |
| C103 | Model/Kernels.v: blocks of threads that run their instructions in any interleaving up to each barrier. Model/GpuAffinity.v: the three kernels as lists of such phases (with uninitialized shared memory), the launch sizes, the limits, the dispatch and the copy of the offsets in constant memory. Numbers are reals. Not modelled: textures and streams, shared memory limits, asynchronous launches | Proofs/Kernels.v: a phase in which no thread writes what another one reads or writes has one outcome for all schedules, and always ends. Proofs/GpuAffinity.v: every phase is free of races, the halving adds exactly the numbers for which `added` holds (induction on the halving), fold over the offsets, a permutation between threads and supporting pixels, and then C89's characterization of the processor's map |
| C104 | the kernel as instructions of the threads between barriers (shared floats, atomic votes, shuffles, reduction), the launch, scdesc_norm on the processor | atomic votes commute, so that sums are independent of the schedule; the shuffle phases are free of races; lockstep is followed round by round; for the refutations a schedule that lets threads run one after the other |
| C105 | the kernels for a thread, their launches, the atomic additions in any order of the threads, the conversion of colours; numbers are reals | the threads inside are a permutation of the pixels; the sums of the additions are those of the members of a cluster, and are zero again after the update; centres stay within two diameters of their cell, which bounds the distance to the own cell; for the refutations the rows of the blocks |
| C106 | `Model/GlScan.v`: the phases between barriers as programs of Model/Kernels.v, the merge row by row and block by block, the transposition as stores in any order; one channel, numbers not reduced modulo 2^32 | races excluded phase by phase, then two invariants: after j passes up, elements hold sums of blocks of 2^j; after passes down, the sum before the block; out of bounds for other sizes from the number of passes; merge by induction on blocks |
| C107 | `Model/GlTile.v`: quadrants, their loops over atomic counters one access to shared memory at a time, both forms of the blur, and the loads and stores of all groups as events on one mask | invariant over schedules: a number that has been drawn is stored or held by one invocation; the four quadrants tile the border; for the mask, invariant over histories: tiles of groups that store are frozen, and pixels are as before or settled; a history with two groups in both orders |
| C108 | `Model/GlRandom.v`: both generators on 32-bit words, the seeding, the neighbour | each operation is one to one (xor with a shift, product with an odd number modulo 2^32), so a step is; the state that stands still is its own only predecessor, and seeding gives it for no rand(); pigeonhole for the period; checked against the numbers of RFC 8682 |
| C109 | refreshModel, the layout of the buffer on both sides, the shader as invocations that read and store one word at a time, getBackgroundImage | addresses by Euclidean division; invariant of an invocation over every schedule: what it read of a sample satisfies a predicate, the good samples are those counted by it; words changed come from invocations that had ended reading; induction over frames; iteration over pixels and samples for the initial model; witnesses computed |
| C110 | The five functions over bitmasks, with the order of Gray codes and __builtin_ctz; unbounded integer values | Local condition to global one by induction over elements (decreasing marginal gains); the Gray code changes one bit per step and is a bijection; telescoping sum along the chain of first elements |
| C111 | The loops over sets of one size with words of 32 bits, undefined __builtin_ctz(0), exit, and fuel for the while loops; that the upper bounds end for more than two elements is not claimed | Gosper's step from the shape of the lowest run of ones; invariants over sizes; each pass only reads sets that it has not changed |
| C112 | the table, reparametrization and tight sets of a clique with 32-bit assignments; the bound of one clique with fixed nodes, the terminals of one node, and the lengths of the vectors of the graph; values without overflow | the step (a-1)&mask is the next lower subset, by induction on halving, so the loops visit each subset once; a push adds a modular function; for tight sets, the one of smallest number is contained in all others since their intersection is tight; histories by induction over the pushes |
| C113 | the flow on terminals and cliques, with parents and parent arcs of the two trees as given; arcs as source, clique and index; the bound and the start for all cliques and nodes. The growth of trees and the adoption of orphans are not modelled: that the search ends with a cut through which nothing goes, and only finds paths without shortcuts, are hypotheses | the two ways up the trees are one path from s to t, by induction over the parents; pushes telescope along it, so that what is left drops evenly; several pushes without shortcuts keep a submodular table nonnegative, by uncrossing a set with the tight sets of the pairs; the set of label 1 in a clique is a union of tight sets, which is tight |
| C114 | `Model/Sospd.v`: MultilabelEnergy, PottsClique, InitialLabeling, InitialDual, PreEditDual, UpdatePrimalDual, PostEditDual, ComputeHeight, ComputeHeightDiff, the proposals and Solve; integers without overflow; the solver through the flow of C113 and the cut it ends with | `Proofs/Sospd.v`, `SospdRound.v`, `SospdLoop.v`: sums exchanged between cliques and variables; the certificate of the cut of C113 bounds the move; induction over rounds |
| C115 | `Model/FrameSubset.v`: the subset sets built line by line, the paths kept, isTemporalWindowBreak of the three datasets, and the order of pushes in cosegm; sets as ordered lists; without calibration data and file names | `Proofs/FrameSubset.v`: ordered insertion, positions in increasing lists, induction over packets with the next packet due as invariant |
| C116 | `Model/KOfN.v`: both ways over lists of the numbers drawn, real ones as fractions, the array with offsets; the choice by k*log(k) is a parameter | `Proofs/KOfN.v`: induction over n by halves and over the numbers, invariant room in both halves; odds by induction over the decisions |
| C117 | `Model/EdgeMatch.v`: matchable pixels, node numbers, real, outlier and overlay edges, the rows of the graph, and the pairs recorded; the draws and what the CSA solver returns are parameters (a perfect match, a cheapest one); the marking loops as the set of pixels they mark | `Proofs/EdgeMatch.v`: kinds of edges by their ranges, pigeonhole over nodes, cost bounds by the number of pairs recorded |
| C118 | `Model/GtIndex.v`: find, substr and atoi of strings, the numbers read from paths with their wrap around, the loops that fill m_mGTIndexLUT, the cleaned list of paths; the reading of directories and images is not modelled, and `%05d` only below 100000 | `Proofs/GtIndex.v`: first occurrences by induction on strings, five digits determine the number, invariants of the three loops |
| C119 | `Model/MoveLoop.v`: the sorting functor and the two nested loops with all their counters, tests and ways out; the moves, the energy, the updates of models and features are parameters, and std::sort is any permutation in which nothing belongs before what precedes it | `Proofs/MoveLoop.v`: invariants of both loops by induction on the moves left |
| C120 | `Model/Strided.v`: matrices as sizes and steps over a memory of scalars, the order in which cv::Mat reads them, its continuity flag (without the limit on the total size), and the functions over them; scalars are integers, cv::resize is a parameter | `Proofs/Strided.v`: places of elements by induction on dimensions, ranges of ranges for continuous matrices, painted rectangles for concat |
| C121 | `Model/SubPix.v`: getSubPix with three borders over coordinates in d-ths, exact where the code uses float; computeTemporalAbsDiff of one channel without smoothing | `Proofs/SubPix.v`: against a sum of tent weights over all pixels; the two pixels with weight, and truncation of places of both signs |
| C122 | `Model/GtStack.v`: sizes, the loop that stacks ground truths and its assertions, the check of names; scale factors are fractions, exact where the code uses double, cv::resize is a parameter | `Proofs/GtStack.v`: induction on the ground truths, whole parts of multiples, names behind the last separator |
| C123 | `Model/CudaToggle.v`: the four members and the functions that change them, lv::cuda::init over a driver with a count of devices and their capabilities; other errors of the driver are left out | `Proofs/CudaToggle.v`: an invariant of each algorithm, and one of all with the current device, over runs |
| C124 | `Model/Display.v`: the sizes computed, internal positions, the marked tile, the index of the album; products with float are exact, drawing and key codes are left out | `Proofs/Display.v`: cases of the limit with bounds on whole parts; quotient and remainder; induction on keys |
| C125 | `Model/Cosegm.v`: validation with its effect on the array, storing, the two loops of initialization with what is left after failures; frame counters, last masks and inputs, and the warning on grey images are left out | `Proofs/Cosegm.v`: inductions on the arrays; counts as lengths of duplicate-free lists of the non-zero positions |
| C126 | `Model/GlBuffers.v`: the tables of formats, offsets in int with overflow as an outcome, the listing with any label without line feeds, the writing loop; reading from the device and failures to open are left out | `Proofs/GlBuffers.v`: cases of the tables; inductions on the images left, the lines and the writes |

## Trusted base

1. The Coq 8.16.1 kernel (`coqc`, `vm_compute` included; `native_compute` is not used) and the standard library.
2. The transcription of the C++ text into `Model/` by hand. No tool relates the two; each definition cites the lines it transcribes.
3. What the C++ standard and third-party documentation say of the primitives used by the code:
   * integer promotion and wrap-around as written out in each file; `char` is signed, `int` 32 bits, `size_t` 64 bits, little-endian bytes;
   * Intel's description of the SSE instructions used in `simd.hpp` and `LBSP.hpp`, ARM's of the NEON ones in `imgproc.cpp`;
   * OpenCV by its documentation: `cv::Mat::create/copyTo`, `countNonZero`, `copyMakeBorder`, `sepFilter2D`, `integral`, `minMaxLoc`, `dilate`,
     `cvtColor`/`split`/`merge` (not modelled, planes are the input), `imwrite/imread` of PNG as lossless;
   * the standard library by contract: `std::sort` (any sorted permutation), `std::unique`, `nth_element`, `std::map/multimap`, `std::promise/future`,
     `std::mutex`/`condition_variable` (a wait releases and retakes the mutex, may wake spuriously, `notify_one` wakes one waiter if there is one);
   * `rand()` as an arbitrary sequence of non-negative numbers; the file system as a map from paths to contents or a listing in any order.
4. Real-number idealisation: `float`/`double` code is modelled over `Q` (or `R` in C36, C73, C74, C87, C88, C89, C90, C91, C92, C93, C101, C103, C104, C105, C106), see the notes below. Theorems of those files say nothing about rounding.

### Axioms

`Print Assumptions` is run under every theorem of `Properties/`. 958 theorems are "Closed under the global context"; the others, all about real
logarithms, rest on axioms of the standard library (`Reals`) only:

| theorem | axioms listed |
|---|---|
| `C101_distance` | `ClassicalDedekindReals.sig_not_dec`, `ClassicalDedekindReals.sig_forall_dec`, `FunctionalExtensionality.functional_extensionality_dep`, `Classical_Prop.classic` |
| `C101_color` | `ClassicalDedekindReals.sig_not_dec`, `ClassicalDedekindReals.sig_forall_dec`, `FunctionalExtensionality.functional_extensionality_dep`, `Classical_Prop.classic` |
| `C101_matched` | `ClassicalDedekindReals.sig_not_dec`, `ClassicalDedekindReals.sig_forall_dec`, `FunctionalExtensionality.functional_extensionality_dep`, `Classical_Prop.classic` |
| `C101_agreed` | `ClassicalDedekindReals.sig_not_dec`, `ClassicalDedekindReals.sig_forall_dec`, `FunctionalExtensionality.functional_extensionality_dep`, `Classical_Prop.classic` |
| `C101_unmatched` | `ClassicalDedekindReals.sig_not_dec`, `ClassicalDedekindReals.sig_forall_dec`, `FunctionalExtensionality.functional_extensionality_dep`, `Classical_Prop.classic` |
| `C101_unmatched_refuted` | `ClassicalDedekindReals.sig_not_dec`, `ClassicalDedekindReals.sig_forall_dec`, `FunctionalExtensionality.functional_extensionality_dep`, `Classical_Prop.classic` |
| `C101_range` | `ClassicalDedekindReals.sig_not_dec`, `ClassicalDedekindReals.sig_forall_dec`, `FunctionalExtensionality.functional_extensionality_dep`, `Classical_Prop.classic` |
| `C101_contours` | `ClassicalDedekindReals.sig_not_dec`, `ClassicalDedekindReals.sig_forall_dec`, `FunctionalExtensionality.functional_extensionality_dep`, `Classical_Prop.classic` |
| `C101_smoother` | `ClassicalDedekindReals.sig_not_dec`, `ClassicalDedekindReals.sig_forall_dec`, `FunctionalExtensionality.functional_extensionality_dep`, `Classical_Prop.classic` |
| `C101_temporal` | `ClassicalDedekindReals.sig_not_dec`, `ClassicalDedekindReals.sig_forall_dec`, `FunctionalExtensionality.functional_extensionality_dep`, `Classical_Prop.classic` |
| `C101_sound` | `ClassicalDedekindReals.sig_not_dec`, `ClassicalDedekindReals.sig_forall_dec`, `FunctionalExtensionality.functional_extensionality_dep`, `Classical_Prop.classic` |
| `C101_layers_refuted` | `ClassicalDedekindReals.sig_not_dec`, `ClassicalDedekindReals.sig_forall_dec`, `FunctionalExtensionality.functional_extensionality_dep`, `Classical_Prop.classic` |
| `C103_same` | `ClassicalDedekindReals.sig_not_dec`, `ClassicalDedekindReals.sig_forall_dec`, `FunctionalExtensionality.functional_extensionality_dep` |
| `C103_runs` | `ClassicalDedekindReals.sig_not_dec`, `ClassicalDedekindReals.sig_forall_dec`, `FunctionalExtensionality.functional_extensionality_dep` |
| `C103_dropped_bins` | `ClassicalDedekindReals.sig_not_dec`, `ClassicalDedekindReals.sig_forall_dec`, `FunctionalExtensionality.functional_extensionality_dep` |
| `C103_offsets_refuted` | `ClassicalDedekindReals.sig_not_dec`, `ClassicalDedekindReals.sig_forall_dec`, `FunctionalExtensionality.functional_extensionality_dep` |
| `C103_dropped_pixels` | `ClassicalDedekindReals.sig_not_dec`, `ClassicalDedekindReals.sig_forall_dec`, `FunctionalExtensionality.functional_extensionality_dep` |
| `C103_patch_refuted` | `ClassicalDedekindReals.sig_not_dec`, `ClassicalDedekindReals.sig_forall_dec`, `FunctionalExtensionality.functional_extensionality_dep` |
| `C103_limits_refuted` | `ClassicalDedekindReals.sig_not_dec`, `ClassicalDedekindReals.sig_forall_dec`, `FunctionalExtensionality.functional_extensionality_dep` |
| `C104_same_counts` | `ClassicalDedekindReals.sig_not_dec`, `ClassicalDedekindReals.sig_forall_dec`, `FunctionalExtensionality.functional_extensionality_dep` |
| `C104_same` | `ClassicalDedekindReals.sig_not_dec`, `ClassicalDedekindReals.sig_forall_dec`, `FunctionalExtensionality.functional_extensionality_dep` |
| `C104_blank_refuted` | `ClassicalDedekindReals.sig_not_dec`, `ClassicalDedekindReals.sig_forall_dec`, `FunctionalExtensionality.functional_extensionality_dep` |
| `C104_lockstep` | `ClassicalDedekindReals.sig_not_dec`, `ClassicalDedekindReals.sig_forall_dec`, `FunctionalExtensionality.functional_extensionality_dep` |
| `C104_lockstep_runs` | `ClassicalDedekindReals.sig_not_dec`, `ClassicalDedekindReals.sig_forall_dec`, `FunctionalExtensionality.functional_extensionality_dep` |
| `C104_order_refuted` | `ClassicalDedekindReals.sig_not_dec`, `ClassicalDedekindReals.sig_forall_dec`, `FunctionalExtensionality.functional_extensionality_dep` |
| `C104_barrier_refuted` | `ClassicalDedekindReals.sig_not_dec`, `ClassicalDedekindReals.sig_forall_dec`, `FunctionalExtensionality.functional_extensionality_dep` |
| `C104_keypoints_refuted` | `ClassicalDedekindReals.sig_not_dec`, `ClassicalDedekindReals.sig_forall_dec`, `FunctionalExtensionality.functional_extensionality_dep` |
| `C104_shared` | `ClassicalDedekindReals.sig_forall_dec` |
| `C104_shared_refuted` | `ClassicalDedekindReals.sig_forall_dec` |
| `C105_kmeans` | `ClassicalDedekindReals.sig_not_dec`, `ClassicalDedekindReals.sig_forall_dec`, `FunctionalExtensionality.functional_extensionality_dep` |
| `C105_local` | `ClassicalDedekindReals.sig_not_dec`, `ClassicalDedekindReals.sig_forall_dec`, `FunctionalExtensionality.functional_extensionality_dep` |
| `C105_stateless` | `ClassicalDedekindReals.sig_not_dec`, `ClassicalDedekindReals.sig_forall_dec`, `FunctionalExtensionality.functional_extensionality_dep` |
| `C105_runs` | `ClassicalDedekindReals.sig_not_dec`, `ClassicalDedekindReals.sig_forall_dec`, `FunctionalExtensionality.functional_extensionality_dep`, `Classical_Prop.classic` |
| `C105_uncovered_refuted` | `ClassicalDedekindReals.sig_not_dec`, `ClassicalDedekindReals.sig_forall_dec`, `FunctionalExtensionality.functional_extensionality_dep` |
| `C105_far_refuted` | `ClassicalDedekindReals.sig_not_dec`, `ClassicalDedekindReals.sig_forall_dec`, `FunctionalExtensionality.functional_extensionality_dep` |
| `C105_fault_refuted` | `ClassicalDedekindReals.sig_not_dec`, `ClassicalDedekindReals.sig_forall_dec`, `FunctionalExtensionality.functional_extensionality_dep` |
| `C105_lab` | `ClassicalDedekindReals.sig_not_dec`, `ClassicalDedekindReals.sig_forall_dec`, `FunctionalExtensionality.functional_extensionality_dep`, `Classical_Prop.classic` |
| `C105_grey_refuted` | `ClassicalDedekindReals.sig_not_dec`, `ClassicalDedekindReals.sig_forall_dec`, `FunctionalExtensionality.functional_extensionality_dep`, `Classical_Prop.classic` |
| `C105_black_refuted` | `ClassicalDedekindReals.sig_not_dec`, `ClassicalDedekindReals.sig_forall_dec`, `FunctionalExtensionality.functional_extensionality_dep`, `Classical_Prop.classic` |
| `C106_scan` | `ClassicalDedekindReals.sig_not_dec`, `ClassicalDedekindReals.sig_forall_dec`, `FunctionalExtensionality.functional_extensionality_dep` |
| `C106_sizes` | `ClassicalDedekindReals.sig_forall_dec` |
| `C106_sizes_refuted` | `ClassicalDedekindReals.sig_forall_dec` |
| `C106_rows` | `ClassicalDedekindReals.sig_not_dec`, `ClassicalDedekindReals.sig_forall_dec`, `FunctionalExtensionality.functional_extensionality_dep` |
| `C106_exists` | `ClassicalDedekindReals.sig_not_dec`, `ClassicalDedekindReals.sig_forall_dec`, `FunctionalExtensionality.functional_extensionality_dep` |
| `C106_groups_refuted` | `ClassicalDedekindReals.sig_not_dec`, `ClassicalDedekindReals.sig_forall_dec`, `FunctionalExtensionality.functional_extensionality_dep` |
| `C106_merged` | `ClassicalDedekindReals.sig_not_dec`, `ClassicalDedekindReals.sig_forall_dec`, `FunctionalExtensionality.functional_extensionality_dep` |
| `C106_merged_refuted` | `ClassicalDedekindReals.sig_not_dec`, `ClassicalDedekindReals.sig_forall_dec`, `FunctionalExtensionality.functional_extensionality_dep` |
| `C36_is_information` | `ClassicalDedekindReals.sig_not_dec`, `ClassicalDedekindReals.sig_forall_dec`, `FunctionalExtensionality.functional_extensionality_dep`, `Classical_Prop.classic` |
| `C36_bounds` | `ClassicalDedekindReals.sig_not_dec`, `ClassicalDedekindReals.sig_forall_dec`, `FunctionalExtensionality.functional_extensionality_dep`, `Classical_Prop.classic` |
| `C36_symmetric` | `ClassicalDedekindReals.sig_not_dec`, `ClassicalDedekindReals.sig_forall_dec`, `FunctionalExtensionality.functional_extensionality_dep`, `Classical_Prop.classic` |
| `C36_normalised` | `ClassicalDedekindReals.sig_not_dec`, `ClassicalDedekindReals.sig_forall_dec`, `FunctionalExtensionality.functional_extensionality_dep`, `Classical_Prop.classic` |
| `C36_self` | `ClassicalDedekindReals.sig_not_dec`, `ClassicalDedekindReals.sig_forall_dec`, `FunctionalExtensionality.functional_extensionality_dep`, `Classical_Prop.classic` |
| `C36_dense_agrees` | `ClassicalDedekindReals.sig_not_dec`, `ClassicalDedekindReals.sig_forall_dec`, `FunctionalExtensionality.functional_extensionality_dep`, `Classical_Prop.classic` |
| `C36_fast_approximation_refuted` | `ClassicalDedekindReals.sig_not_dec`, `ClassicalDedekindReals.sig_forall_dec`, `FunctionalExtensionality.functional_extensionality_dep`, `Classical_Prop.classic` |
| `C73_density` | `ClassicalDedekindReals.sig_not_dec`, `ClassicalDedekindReals.sig_forall_dec`, `FunctionalExtensionality.functional_extensionality_dep`, `Classical_Prop.classic` |
| `C73_mixture` | `ClassicalDedekindReals.sig_not_dec`, `ClassicalDedekindReals.sig_forall_dec`, `FunctionalExtensionality.functional_extensionality_dep`, `Classical_Prop.classic` |
| `C73_best` | `ClassicalDedekindReals.sig_not_dec`, `ClassicalDedekindReals.sig_forall_dec`, `FunctionalExtensionality.functional_extensionality_dep` |
| `C73_likeliest_refuted` | `ClassicalDedekindReals.sig_not_dec`, `ClassicalDedekindReals.sig_forall_dec`, `FunctionalExtensionality.functional_extensionality_dep`, `Classical_Prop.classic` |
| `C73_assign` | `ClassicalDedekindReals.sig_not_dec`, `ClassicalDedekindReals.sig_forall_dec`, `FunctionalExtensionality.functional_extensionality_dep` |
| `C73_round` | `ClassicalDedekindReals.sig_not_dec`, `ClassicalDedekindReals.sig_forall_dec`, `FunctionalExtensionality.functional_extensionality_dep` |
| `C74_root` | `ClassicalDedekindReals.sig_not_dec`, `ClassicalDedekindReals.sig_forall_dec`, `FunctionalExtensionality.functional_extensionality_dep` |
| `C74_normalized` | `ClassicalDedekindReals.sig_not_dec`, `ClassicalDedekindReals.sig_forall_dec`, `FunctionalExtensionality.functional_extensionality_dep` |
| `C74_undefined` | `ClassicalDedekindReals.sig_not_dec`, `ClassicalDedekindReals.sig_forall_dec`, `FunctionalExtensionality.functional_extensionality_dep` |
| `C74_scale` | `ClassicalDedekindReals.sig_not_dec`, `ClassicalDedekindReals.sig_forall_dec`, `FunctionalExtensionality.functional_extensionality_dep` |
| `C74_invariant_refuted` | `ClassicalDedekindReals.sig_not_dec`, `ClassicalDedekindReals.sig_forall_dec`, `FunctionalExtensionality.functional_extensionality_dep` |
| `C74_distance` | `ClassicalDedekindReals.sig_not_dec`, `ClassicalDedekindReals.sig_forall_dec`, `FunctionalExtensionality.functional_extensionality_dep` |
| `C74_integers_erased` | `ClassicalDedekindReals.sig_not_dec`, `ClassicalDedekindReals.sig_forall_dec`, `FunctionalExtensionality.functional_extensionality_dep` |
| `C74_sparseness` | `ClassicalDedekindReals.sig_not_dec`, `ClassicalDedekindReals.sig_forall_dec`, `FunctionalExtensionality.functional_extensionality_dep` |
| `C74_sparseness_none` | `ClassicalDedekindReals.sig_not_dec`, `ClassicalDedekindReals.sig_forall_dec`, `FunctionalExtensionality.functional_extensionality_dep` |
| `C74_sparseness_refuted` | `ClassicalDedekindReals.sig_not_dec`, `ClassicalDedekindReals.sig_forall_dec`, `FunctionalExtensionality.functional_extensionality_dep` |
| `C74_sparseness_invariant` | `ClassicalDedekindReals.sig_not_dec`, `ClassicalDedekindReals.sig_forall_dec`, `FunctionalExtensionality.functional_extensionality_dep` |
| `C87_pass` | `ClassicalDedekindReals.sig_forall_dec`, `FunctionalExtensionality.functional_extensionality_dep` |
| `C87_edges` | `ClassicalDedekindReals.sig_not_dec`, `ClassicalDedekindReals.sig_forall_dec`, `FunctionalExtensionality.functional_extensionality_dep`, `Classical_Prop.classic` |
| `C87_mean` | `ClassicalDedekindReals.sig_not_dec`, `ClassicalDedekindReals.sig_forall_dec`, `FunctionalExtensionality.functional_extensionality_dep`, `Classical_Prop.classic` |
| `C87_correlation` | `ClassicalDedekindReals.sig_not_dec`, `ClassicalDedekindReals.sig_forall_dec`, `FunctionalExtensionality.functional_extensionality_dep`, `Classical_Prop.classic` |
| `C87_entries` | `ClassicalDedekindReals.sig_not_dec`, `ClassicalDedekindReals.sig_forall_dec`, `FunctionalExtensionality.functional_extensionality_dep`, `Classical_Prop.classic` |
| `C87_unit` | `ClassicalDedekindReals.sig_not_dec`, `ClassicalDedekindReals.sig_forall_dec`, `FunctionalExtensionality.functional_extensionality_dep`, `Classical_Prop.classic` |
| `C87_inner` | `ClassicalDedekindReals.sig_not_dec`, `ClassicalDedekindReals.sig_forall_dec`, `FunctionalExtensionality.functional_extensionality_dep`, `Classical_Prop.classic` |
| `C87_validated_refuted` | `ClassicalDedekindReals.sig_not_dec`, `ClassicalDedekindReals.sig_forall_dec`, `FunctionalExtensionality.functional_extensionality_dep`, `Classical_Prop.classic` |
| `C87_uniform` | `ClassicalDedekindReals.sig_not_dec`, `ClassicalDedekindReals.sig_forall_dec`, `FunctionalExtensionality.functional_extensionality_dep`, `Classical_Prop.classic` |
| `C88_complete` | `ClassicalDedekindReals.sig_not_dec`, `ClassicalDedekindReals.sig_forall_dec`, `FunctionalExtensionality.functional_extensionality_dep`, `Classical_Prop.classic` |
| `C88_reach` | `ClassicalDedekindReals.sig_not_dec`, `ClassicalDedekindReals.sig_forall_dec`, `FunctionalExtensionality.functional_extensionality_dep`, `Classical_Prop.classic` |
| `C88_complete_refuted` | `ClassicalDedekindReals.sig_not_dec`, `ClassicalDedekindReals.sig_forall_dec`, `FunctionalExtensionality.functional_extensionality_dep`, `Classical_Prop.classic` |
| `C88_one_ring` | `ClassicalDedekindReals.sig_not_dec`, `ClassicalDedekindReals.sig_forall_dec`, `FunctionalExtensionality.functional_extensionality_dep`, `Classical_Prop.classic` |
| `C89_image` | `ClassicalDedekindReals.sig_forall_dec` |
| `C89_mi` | `ClassicalDedekindReals.sig_forall_dec`, `FunctionalExtensionality.functional_extensionality_dep` |
| `C89_image_symmetric` | `ClassicalDedekindReals.sig_forall_dec` |
| `C89_ssd` | `ClassicalDedekindReals.sig_not_dec`, `ClassicalDedekindReals.sig_forall_dec`, `FunctionalExtensionality.functional_extensionality_dep` |
| `C89_descriptors` | `ClassicalDedekindReals.sig_forall_dec`, `FunctionalExtensionality.functional_extensionality_dep` |
| `C89_symmetric` | `ClassicalDedekindReals.sig_forall_dec`, `FunctionalExtensionality.functional_extensionality_dep` |
| `C89_bounds` | `ClassicalDedekindReals.sig_not_dec`, `ClassicalDedekindReals.sig_forall_dec`, `FunctionalExtensionality.functional_extensionality_dep` |
| `C89_wanted_refuted` | `ClassicalDedekindReals.sig_forall_dec`, `FunctionalExtensionality.functional_extensionality_dep` |
| `C89_match_refuted` | `ClassicalDedekindReals.sig_forall_dec`, `FunctionalExtensionality.functional_extensionality_dep` |
| `C89_single` | `ClassicalDedekindReals.sig_forall_dec`, `FunctionalExtensionality.functional_extensionality_dep` |
| `C90_accepted` | `ClassicalDedekindReals.sig_forall_dec`, `FunctionalExtensionality.functional_extensionality_dep` |
| `C90_direction` | `ClassicalDedekindReals.sig_not_dec`, `ClassicalDedekindReals.sig_forall_dec`, `FunctionalExtensionality.functional_extensionality_dep`, `Classical_Prop.classic` |
| `C90_outside` | `ClassicalDedekindReals.sig_not_dec`, `ClassicalDedekindReals.sig_forall_dec`, `FunctionalExtensionality.functional_extensionality_dep`, `Classical_Prop.classic` |
| `C90_project` | `ClassicalDedekindReals.sig_not_dec`, `ClassicalDedekindReals.sig_forall_dec`, `FunctionalExtensionality.functional_extensionality_dep`, `Classical_Prop.classic` |
| `C90_round_trip` | `ClassicalDedekindReals.sig_not_dec`, `ClassicalDedekindReals.sig_forall_dec`, `FunctionalExtensionality.functional_extensionality_dep`, `Classical_Prop.classic` |
| `C90_centre` | `ClassicalDedekindReals.sig_not_dec`, `ClassicalDedekindReals.sig_forall_dec`, `FunctionalExtensionality.functional_extensionality_dep`, `Classical_Prop.classic` |
| `C90_behind` | `ClassicalDedekindReals.sig_not_dec`, `ClassicalDedekindReals.sig_forall_dec`, `FunctionalExtensionality.functional_extensionality_dep`, `Classical_Prop.classic` |
| `C90_right_angle_refuted` | `ClassicalDedekindReals.sig_not_dec`, `ClassicalDedekindReals.sig_forall_dec`, `FunctionalExtensionality.functional_extensionality_dep`, `Classical_Prop.classic` |
| `C90_left_refuted` | `ClassicalDedekindReals.sig_not_dec`, `ClassicalDedekindReals.sig_forall_dec`, `FunctionalExtensionality.functional_extensionality_dep`, `Classical_Prop.classic` |
| `C90_box` | `ClassicalDedekindReals.sig_not_dec`, `ClassicalDedekindReals.sig_forall_dec`, `FunctionalExtensionality.functional_extensionality_dep`, `Classical_Prop.classic` |
| `C90_box_corners` | `ClassicalDedekindReals.sig_not_dec`, `ClassicalDedekindReals.sig_forall_dec`, `FunctionalExtensionality.functional_extensionality_dep`, `Classical_Prop.classic` |
| `C90_full_box_refuted` | `ClassicalDedekindReals.sig_not_dec`, `ClassicalDedekindReals.sig_forall_dec`, `FunctionalExtensionality.functional_extensionality_dep`, `Classical_Prop.classic` |
| `C91_invariant` | `ClassicalDedekindReals.sig_not_dec`, `ClassicalDedekindReals.sig_forall_dec`, `FunctionalExtensionality.functional_extensionality_dep`, `Classical_Prop.classic` |
| `C91_create` | `ClassicalDedekindReals.sig_not_dec`, `ClassicalDedekindReals.sig_forall_dec`, `FunctionalExtensionality.functional_extensionality_dep`, `Classical_Prop.classic` |
| `C91_wrap` | `ClassicalDedekindReals.sig_forall_dec`, `FunctionalExtensionality.functional_extensionality_dep` |
| `C91_wrap_refuted` | `ClassicalDedekindReals.sig_not_dec`, `ClassicalDedekindReals.sig_forall_dec`, `FunctionalExtensionality.functional_extensionality_dep`, `Classical_Prop.classic` |
| `C91_go_to` | `ClassicalDedekindReals.sig_not_dec`, `ClassicalDedekindReals.sig_forall_dec`, `FunctionalExtensionality.functional_extensionality_dep`, `Classical_Prop.classic` |
| `C91_turn` | `ClassicalDedekindReals.sig_not_dec`, `ClassicalDedekindReals.sig_forall_dec`, `FunctionalExtensionality.functional_extensionality_dep`, `Classical_Prop.classic` |
| `C91_seek` | `ClassicalDedekindReals.sig_forall_dec`, `FunctionalExtensionality.functional_extensionality_dep` |
| `C91_tilt` | `ClassicalDedekindReals.sig_forall_dec`, `FunctionalExtensionality.functional_extensionality_dep` |
| `C91_sign` | `ClassicalDedekindReals.sig_forall_dec`, `FunctionalExtensionality.functional_extensionality_dep` |
| `C91_sign_refuted` | `ClassicalDedekindReals.sig_forall_dec`, `FunctionalExtensionality.functional_extensionality_dep` |
| `C91_wait` | `ClassicalDedekindReals.sig_forall_dec`, `FunctionalExtensionality.functional_extensionality_dep` |
| `C91_ends` | `ClassicalDedekindReals.sig_not_dec`, `ClassicalDedekindReals.sig_forall_dec`, `FunctionalExtensionality.functional_extensionality_dep`, `Classical_Prop.classic` |
| `C91_still` | `ClassicalDedekindReals.sig_forall_dec`, `FunctionalExtensionality.functional_extensionality_dep` |
| `C91_clock` | `ClassicalDedekindReals.sig_not_dec`, `ClassicalDedekindReals.sig_forall_dec`, `FunctionalExtensionality.functional_extensionality_dep`, `Classical_Prop.classic` |
| `C91_forward` | `ClassicalDedekindReals.sig_not_dec`, `ClassicalDedekindReals.sig_forall_dec`, `FunctionalExtensionality.functional_extensionality_dep`, `Classical_Prop.classic` |
| `C91_idle_refuted` | `ClassicalDedekindReals.sig_forall_dec`, `FunctionalExtensionality.functional_extensionality_dep` |
| `C91_no_frame_refuted` | `ClassicalDedekindReals.sig_forall_dec`, `FunctionalExtensionality.functional_extensionality_dep` |
| `C91_restart_refuted` | `ClassicalDedekindReals.sig_not_dec`, `ClassicalDedekindReals.sig_forall_dec`, `FunctionalExtensionality.functional_extensionality_dep`, `Classical_Prop.classic` |
| `C91_seek_refuted` | `ClassicalDedekindReals.sig_forall_dec`, `FunctionalExtensionality.functional_extensionality_dep` |
| `C91_update` | `ClassicalDedekindReals.sig_not_dec`, `ClassicalDedekindReals.sig_forall_dec`, `FunctionalExtensionality.functional_extensionality_dep`, `Classical_Prop.classic` |
| `C91_update_refuted` | `ClassicalDedekindReals.sig_not_dec`, `ClassicalDedekindReals.sig_forall_dec`, `FunctionalExtensionality.functional_extensionality_dep`, `Classical_Prop.classic` |
| `C91_make_refuted` | `ClassicalDedekindReals.sig_forall_dec`, `FunctionalExtensionality.functional_extensionality_dep` |
| `C92_overlap` | `ClassicalDedekindReals.sig_forall_dec`, `FunctionalExtensionality.functional_extensionality_dep` |
| `C92_overlap_bounds` | `ClassicalDedekindReals.sig_forall_dec`, `FunctionalExtensionality.functional_extensionality_dep` |
| `C92_overlap_one` | `ClassicalDedekindReals.sig_forall_dec`, `FunctionalExtensionality.functional_extensionality_dep` |
| `C92_sums` | `ClassicalDedekindReals.sig_not_dec`, `ClassicalDedekindReals.sig_forall_dec`, `FunctionalExtensionality.functional_extensionality_dep`, `Classical_Prop.classic` |
| `C92_means` | `ClassicalDedekindReals.sig_not_dec`, `ClassicalDedekindReals.sig_forall_dec`, `FunctionalExtensionality.functional_extensionality_dep`, `Classical_Prop.classic` |
| `C92_processed` | `ClassicalDedekindReals.sig_not_dec`, `ClassicalDedekindReals.sig_forall_dec`, `FunctionalExtensionality.functional_extensionality_dep`, `Classical_Prop.classic` |
| `C92_ratio_refuted` | `ClassicalDedekindReals.sig_not_dec`, `ClassicalDedekindReals.sig_forall_dec`, `FunctionalExtensionality.functional_extensionality_dep`, `Classical_Prop.classic` |
| `C92_right_refuted` | `ClassicalDedekindReals.sig_not_dec`, `ClassicalDedekindReals.sig_forall_dec`, `FunctionalExtensionality.functional_extensionality_dep`, `Classical_Prop.classic` |
| `C92_below_refuted` | `ClassicalDedekindReals.sig_not_dec`, `ClassicalDedekindReals.sig_forall_dec`, `FunctionalExtensionality.functional_extensionality_dep`, `Classical_Prop.classic` |
| `C92_average_refuted` | `ClassicalDedekindReals.sig_not_dec`, `ClassicalDedekindReals.sig_forall_dec`, `FunctionalExtensionality.functional_extensionality_dep`, `Classical_Prop.classic` |
| `C92_empty_refuted` | `ClassicalDedekindReals.sig_not_dec`, `ClassicalDedekindReals.sig_forall_dec`, `FunctionalExtensionality.functional_extensionality_dep`, `Classical_Prop.classic` |
| `C92_stale_refuted` | `ClassicalDedekindReals.sig_not_dec`, `ClassicalDedekindReals.sig_forall_dec`, `FunctionalExtensionality.functional_extensionality_dep`, `Classical_Prop.classic` |
| `C92_init_box` | `ClassicalDedekindReals.sig_not_dec`, `ClassicalDedekindReals.sig_forall_dec`, `FunctionalExtensionality.functional_extensionality_dep`, `Classical_Prop.classic` |
| `C93_configurations` | `ClassicalDedekindReals.sig_forall_dec` |
| `C93_dense` | `ClassicalDedekindReals.sig_not_dec`, `ClassicalDedekindReals.sig_forall_dec`, `FunctionalExtensionality.functional_extensionality_dep` |
| `C93_rejects` | `ClassicalDedekindReals.sig_not_dec`, `ClassicalDedekindReals.sig_forall_dec`, `FunctionalExtensionality.functional_extensionality_dep` |
| `C93_rows` | `ClassicalDedekindReals.sig_not_dec`, `ClassicalDedekindReals.sig_forall_dec`, `FunctionalExtensionality.functional_extensionality_dep` |
| `C93_unlisted_refuted` | `ClassicalDedekindReals.sig_not_dec`, `ClassicalDedekindReals.sig_forall_dec`, `FunctionalExtensionality.functional_extensionality_dep` |
| `C93_same` | `ClassicalDedekindReals.sig_not_dec`, `ClassicalDedekindReals.sig_forall_dec`, `FunctionalExtensionality.functional_extensionality_dep` |
| `C93_unique` | `ClassicalDedekindReals.sig_not_dec`, `ClassicalDedekindReals.sig_forall_dec`, `FunctionalExtensionality.functional_extensionality_dep` |
| `C93_range` | `ClassicalDedekindReals.sig_not_dec`, `ClassicalDedekindReals.sig_forall_dec`, `FunctionalExtensionality.functional_extensionality_dep`, `Classical_Prop.classic` |
| `C93_unit` | `ClassicalDedekindReals.sig_not_dec`, `ClassicalDedekindReals.sig_forall_dec`, `FunctionalExtensionality.functional_extensionality_dep` |
| `C93_distance` | `ClassicalDedekindReals.sig_not_dec`, `ClassicalDedekindReals.sig_forall_dec`, `FunctionalExtensionality.functional_extensionality_dep`, `Classical_Prop.classic` |
| `C93_shift` | `ClassicalDedekindReals.sig_not_dec`, `ClassicalDedekindReals.sig_forall_dec`, `FunctionalExtensionality.functional_extensionality_dep` |
| `C93_border_refuted` | `ClassicalDedekindReals.sig_not_dec`, `ClassicalDedekindReals.sig_forall_dec`, `FunctionalExtensionality.functional_extensionality_dep`, `Classical_Prop.classic` |
| `C93_faint_refuted` | `ClassicalDedekindReals.sig_not_dec`, `ClassicalDedekindReals.sig_forall_dec`, `FunctionalExtensionality.functional_extensionality_dep`, `Classical_Prop.classic` |
| `C93_dynamic_refuted` | `ClassicalDedekindReals.sig_not_dec`, `ClassicalDedekindReals.sig_forall_dec`, `FunctionalExtensionality.functional_extensionality_dep`, `Classical_Prop.classic` |
| `C93_blind_refuted` | `ClassicalDedekindReals.sig_not_dec`, `ClassicalDedekindReals.sig_forall_dec`, `FunctionalExtensionality.functional_extensionality_dep` |

Closed under the global context, by property (the prefix of the name is left out):

| property | theorems |
|---|---|
| C01 | get_next_pow2_least, get_next_pow2_zero_outside, ispow2_iff |
| C02 | popcount_counts_ones, hdist_counts_differences, hdist_zero_iff_equal, hdist_symmetric, hdist_triangle, hdist_arr_mod, hdist_arr_uint8_exact_refuted, gdist_le_hdist, gdist_is_popcount_difference |
| C03 | L1dist_scalar_exact, L1dist_array_mod, L1dist_array_exact_iff, L1dist_array_default_exact_refuted, L1dist_masked_exact |
| C04 | L2sqrdist_8bit_exact, L2sqrdist_16bit, L2sqrdist_16bit_defined_refuted, L2dist_8bit_radicand, L2dist_3ch_exact_refuted, L2sqrdist_array_exact_wide |
| C05 | cdist_zero_cases, cdist_value, cdist_proportional_zero, cdist_16bit_defined_refuted, cmix_value, cmix_pixel_value, cmix_separates_refuted |
| C06 | find_nn_index_first_minimiser, find_nn_index_sentinel_iff_empty |
| C07 | interp1_passes_through_knots, interp1_first_half_interpolates, interp1_second_half_extrapolates, interp1_is_interpolation_refuted, interp1_min_overlap_in_bounds_refuted, interp1_rejects_extrapolation |
| C08 | linspace_points, linspace_endpoints_and_step, linspace_without_initial, linspace_small |
| C09 | expand_bits_interleaves, expand_bits_injective, expand_bits_64bit_refuted, extend_bits_zero_max, extend_bits_strictly_monotone, extend_bits_max_beyond_double_refuted |
| C10 | exact_period, visits_every_state, seed_update_injective, output_is_bits_16_to_30, vec_is_lanewise, defined_for_all_seeds_refuted, checked_agrees |
| C100 | calls, loop, resume, rerun_refuted, past_end_refuted, no_truth_refuted, roi_refuted |
| C101 | partner, back |
| C102 | hysteresis, monotone, default, unit_refuted, documented_refuted, votes, order, ends, flat, relative_refuted, kernel, kernel_refuted |
| C103 | thirds, offsets, two_threads_refuted, dispatch, rois_refuted |
| C104 | pixels, rounding, rounding_refuted |
| C105 | covered, columns |
| C106 | merge, transpose |
| C107 | preload, finishes, cells, writers, shared, median, corner_refuted, race, inside, order_refuted |
| C108 | alive, stuck, distinct, reversible, periodic, hash, seed, neighbour, even, frame_refuted |
| C109 | layout, texture, decision, provenance, elsewhere, ends, initial, static, coloured_refuted, tall_refuted, image, mask_refuted, pairs_refuted |
| C11 | determinant_small, determinant_general, LU_solves, invert_small, invert_small_fails_iff_singular, invert_general, invert_general_reports_singular, invert_general_only_singular_refuted, invert_in_place_refuted, integer_elements_refuted |
| C110 | check, add, add_submodular, subtract, normalize, normalize_refuted, zero, zero_submodular, upper, upper_refuted |
| C111 | next, visits, lower, early, early_refuted, cvpr14, progress, cvpr14_two, undefined, undefined_refuted, chen, chen_two |
| C112 | capacity, push, push_keeps, push_capacity, tight, nonzero, self_refuted, empty, history, reset_alpha, bound, chen, cvpr14, fixed, fixed_refuted, unary, saturate, nodes, outside, outside_refuted |
| C113 | augment, history, shortcut_refuted, certificate, minimum, least, bound, init, energy, arcs, reverse, less_refuted, less, labels |
| C114 | energy, add_var, add_unary, add_clique, constant, constant_refuted, potts, label_refuted, initial, dual, fraction_refuted, height, height_diff, heights, table, post, round, chen, solve, completion_refuted, alpha, height_label, clip |
| C115 | load, only, full, vap, kept, break, run, window, always, otherwise, otherwise_refuted, 2014, 2014_refuted, vap_only_refuted, pushes, pushes_subset, layers, pushes_full, pushes_full_refuted |
| C116 | small, small_depth, room, small_all, large, large_sample, large_uniform, kofn, exactly_k_refuted |
| C117 | nodes, edges, weight, selection, drawable, graph, feasible, pairs, counts, best, six, draws_refuted |
| C118 | key, pets, pets_other_refuted, pets_directory_refuted, wallflower, matcher, no_digits, packets, got, cleaned, directory_refuted |
| C119 | order, functor, functor_refuted, moves, passes, background_first, unchanged, updates, energy, stable, updates_refuted, labels_refuted |
| C12 | filter_out, filter_in, indices_of, sort_indices, unique_indices, unique_indices_first_occurrence_refuted, unique, make_range, make_range_empty, make_range_all_ints_refuted |
| C120 | squeeze, squeeze_sizes, basic, basic_refuted, sub, sub_one, sub_refuted, equal, nearly, nearly_refuted, empty, one_empty, concat |
| C121 | bilinear, pixel, round, between, before_refuted, jump_refuted, inside, everywhere, constant_refuted, diff, diff_bound, diff_refuted |
| C122 | returned, stacked, whole, half_refuted, names, names_refuted |
| C123 | parallel, switch, init, none, device, device_refuted |
| C124 | limit, fits, square, fits_refuted, enlarged_refuted, flat_refuted, window, mouse, cursor, album |
| C125 | initialize, counts, set, again, set_refuted, size_refuted, failed_refuted, argument_refuted |
| C126 | formats, inverse, formats_refuted, images, images_refuted, listing, prealloc, prealloc_refuted |
| C13 | split_join, split_join_identity_refuted, contains_token, clamp_length, clamp_content |
| C14 | putf_complete, putf_at_buffer_size, putf_1024_refuted |
| C15 | operations_meet_contract, never_faults, read_returns_element, no_leak_no_sharing, at_checked, push_back_growth |
| C16 | same_size_move_static_aliases_source, same_size_move_heap_aliases_source, push_own_element_when_full, at_negative_index_unchecked |
| C17 | allocation_size, allocation_least, unchecked_count_refuted |
| C18 | conservation, no_lost_wakeup, turns_hand_out_all, turn, try, fairness_refuted, overflow_refuted |
| C19 | first_in_first_out, each_once, no_lost_wakeup, destructor_runs_all, comes_to_rest, rest_is_reached, refused, accepted_always_runs_refuted, safe_destruction_refuted |
| C20 | eval_floor, eval_outside, eval_round_nearest, eval_mid_in_bounds, eval_mid_round_odd, eval_mid_even_misses_min, eval_mid_exact_at_ends_refuted, integer_table_exact |
| C21 | comparisons, horizontal_sums, horizontal_extrema_8ui, hmax_32si, products, unpack, extract_sse41, extract_sse2_iff, extract_sse2_refuted |
| C22 | clamp_inside_and_nearest, clamp_without_room_refuted, sample_inside, sample_frequency_is_weight, sample_3x3_7x7, sample_periodic, sample_negative_random, neighbor_defined_inside, neighbor_exactly_once, neighbor_negative_random_undefined |
| C23 | equality_iff, equality_equivalence, total, empty_iff_null_dimension_refuted, transpose_involution, cross_type_symmetric, cross_type_symmetry_refuted, negative_size_rejected_refuted, sizes_rejected_iff, cvsize_roundtrip, cvsize_comparison_congruent_refuted |
| C24 | unpack_pack, pack_unpack, pack_row_is_pointwise, unpack_row_is_pointwise |
| C25 | bgr_channels_in_range, bgr_hsl_bgr, bgr8_hsl_bgr8, hsl_bgr_hsl, bytes |
| C26 | binary_roundtrip, binary_injective, region_roundtrip, lz4_roundtrip, lz4_write_succeeds, binary_truncation_detected, lz4_truncation_undetected_refuted, overrun_iff, header_not_validated_refuted, read_into_continuous, read_into_region_refuted, plaintext_exact_iff, plaintext_nearest, plaintext_roundtrip_refuted |
| C27 | pack_unpack, unpack_exact, empty_info_lost_refuted, big_packet_overrun_refuted |
| C28 | copies_exactly_the_overlap, negative_rectangle_not_empty_refuted |
| C29 | integer_shift_inside, integer_shift, subpixel_shift, subpixel_position, last_column_refuted |
| C30 | chatfield_valid, chatfield_bad_angle, chatfield_out_of_range_refuted, chatfield_division_by_zero, lienhart_valid, lienhart_one_bin_empty |
| C31 | polynomial_equals_energy, minimisers_agree |
| C32 | scalar, sse41, sse2, paths_agree, descriptor_unique |
| C33 | lookup_in_image, offsets_are_pattern, lookup_distinct, centre_not_in_pattern, gradient, gradient_bounds, gradient_threshold, written_pixels |
| C34 | absolute, absolute_range, absolute_large_refuted, relative_range, relative_monotone, relative_exact, relative_large_refuted, rounding_exists |
| C35 | counts, dense, representations_agree, bins |
| C37 | pass_exact, pass_keeps_values, removed_neighbours_form_arc, terminates, fuel_irrelevant, subset, border_kept, result_irreducible, idempotent, pattern_only, nonempty_preserved_refuted |
| C38 | out_of_bounds_iff, black_border_always, otherwise_subset |
| C39 | histogram_exact, median_is_upper_median, rank_determines_value, empty_selection_overruns, blur_is_lower_median, blur_default, blur_buffer_fits, same_median_refuted |
| C40 | unmasked_majority, masked_majority, unmasked_equals_full_mask, consensus, integral_range, raw_01, raw_255_is_dilation, neon_integral |
| C41 | defined, marks_are_maxima, marks_are_separated, strict_maxima_are_marked, all_strict_maxima_marked_refuted, masked_negative_write_refuted, line_maximum, diagonal_maximum, line_maximum_unique |
| C42 | components, mask, aligned_refuted, blank_image_refuted |
| C43 | level_in_bounds, every_pixel_once, inner_pixels, next_level_written_once, next_level_range, next_level_mean, level_size, large_images_safe, small_images_refuted |
| C44 | counts, no_ground_truth, additive, equal, commutative, associative, order, colours, strided_roi_refuted |
| C45 | bounded, complements, fmeasure, fmeasure_between, mcc, mcc_perfect, mcc_sign_refuted, perfect_is_zero_refuted |
| C46 | average, average_bounds, no_output, totals, average_is_total_refuted, equal_categories_refuted |
| C47 | known, errors, merge, percent_range, percent_antitone, percent_merge, percent_order, average, nan_spreads, nan_is_bad_refuted |
| C48 | returned, no_failure, held, always_served, progress, join, last_index_refuted, end_stops_caching |
| C49 | exception_frees_packet_refuted, stop_frees_packet_refuted, exception_is_permanent, start_rethrows |
| C50 | conservation, one_at_a_time, distinct_indices, in_order, queue_exact, accepted_iff_fits, stop_flushes, no_lost_wakeup, caller_served, stop_returns, exceptions_reported, stop_flushes_always_refuted |
| C51 | workers_take_the_same_packet, second_erase_is_undefined, two_workers_refuted, no_worker_writes_nothing, requeued_packet_lost_refuted, requeued_packet_hangs_refuted, hang_is_permanent |
| C52 | count, push, final_count, final_time, current_time, never_again, restart_refuted |
| C53 | batches, counts, final, any, each, print, parse, distinct_paths, parse_succeeds, skipping_a_directory_refuted, backslash_refuted |
| C54 | value, injective, images, extensions_refuted, load_after_save, load_after_save_array, overwritten_refuted, order, order_refuted |
| C55 | mask, decision, wrap_refuted, seen, updates, foreground, rate_one, familiar, static, still_refuted |
| C56 | bounds, rate, faults, shift_refuted, window_refuted, lights_refuted, decision, identical, monotone, pbas_bounds, pbas_lottery, pbas_decision, pbas_steady |
| C57 | enumerates, pixel, inverse, first_frame, away, region, again, copy_accepted_refuted, same_region_refuted |
| C58 | kept, order, idempotent, removals, keeps_refuted, directory, names_only_refuted, files, directories, sorted, same_listing, slash |
| C59 | pixels, nodes, reads, elsewhere, source, values, still, identity, translation, motion, motion_image, control, control_last_refuted, coinciding_refuted |
| C60 | inside, disjoint, order, rows, elements, no_padding, overflow_refuted, any_alignment_refuted, user_data_refuted |
| C61 | cumulativeSum_mod, cumulativeSum_length, cumulativeSum_exact_refuted |
| C62 | digit_count_int, digit_count_64bit_refuted |
| C63 | irreflexive, transitive, incomparable_iff_equal_ignoring_case, lexicographic |
| C64 | line, circle, line_metric, circle_metric, shorter, renumber, bounds, faults, totals_refuted |
| C65 | distinct, refused, single, ends, table_refuted |
| C66 | difference, merged |
| C67 | accumulated, sector_exact, sectors_used, candidate_directions, follows_gradient_refuted, border_descriptor, border_gradient |
| C68 | binary, pixels, score, colour, idempotent, score_without_roi_refuted |
| C69 | defined, decision, observed, updates, override, foreground_kept_out_refuted, normaliser, feedback, familiar, static |
| C70 | connected, merged, limit, no_limit, requested, requested_fault, requested_refuted, labelled_refuted, count_refuted, small_refuted |
| C71 | matching, monotone, full_recall, perfect_precision_refuted, sweep, sweep_exact, sweep_refuted, best, cumulate, order, area, area_refuted |
| C72 | defined, decision, provenance, updates, rate, refresh, static, static_border_refuted, small_fraction_refuted, infinite_rate_refuted, four_channels_refuted, background |
| C73 | learned, weights, init, any_mask_refuted, all_assigned_refuted, relearn |
| C75 | faults, decision, refines, bounds, provenance, updates, override, refresh, table, table_rule, table_monotone, static, reset_few_samples, thin_images, still_refuted, static_region_refuted, still_later_refuted, infinite_rate_refuted |
| C76 | initialize, dictionaries, refresh, few_samples, initialize_level, maps, illumination, initialize_again_refuted |
| C77 | frame, familiar, unseen, contrast_refuted |
| C78 | bounds, table, moves, blinks, override_refuted |
| C79 | background, descriptor, no_background_refuted, descriptor_bits_refuted |
| C80 | exact, shape |
| C81 | start, moves |
| C82 | value, bound, minimizing, tables, exact_refuted, long_ranges_refuted |
| C83 | construct, position, zero_offset, outputs_refuted, starting_point_refuted |
| C84 | projection, run, match_kept_refuted, no_occluded_refuted, occlusions, occlusions_refuted |
| C85 | setup, energy, table, pose, minimizer, finish |
| C86 | members, energy, first_frame, raised_refuted |
| C87 | validated |
| C88 | dense, near, rows, keyed, keyed_refuted, outside, stale_refuted, missing_refuted |
| C89 | inside |
| C92 | lost, behind, setup, entries, setup_refuted |
| C94 | border, rounded, order, kept, rows, fraction_refuted, mi_sound, mi_accepts, mi_refuted, all, count, reshape_refuted, reshape, mask, mask_refuted, dasc_refuted, map, map_refuted, validate, validate_refuted |
| C95 | video_frame, video_uniform, info, files, past_end, missing, past_end_refuted, wrap_refuted, image_list, image_parse, image_shown, image_past, gt_none, gt_shown |
| C96 | arrays, after_other, packet_refuted, features, features_none, features_array, features_refuted, features_empty_refuted, wrong_info_refuted, other_info_refuted, outputs, outputs_refuted |
| C97 | unary, match_cost, sound, pairs, pair_costs, start_best, start_real, start_first, start_unmatched, perfect_match_refuted, no_texture_refuted, free_step_refuted, metric_refuted, accepts, whole_image_refuted |
| C98 | packets, totals, tree_totals, errors, totals_exist, unprocessed_refuted, averages, averages_exist, names_refuted, reduced, reduced_average, pooled_refuted, disparity_averages, labels, labels_refuted |
| C99 | counts, over, rows, padding, validated, validated_refuted, block, block_refuted, reset_refuted, colours, colours_refuted |

### What is modelled

One entry per file of `Model/`: its source, and what was simplified or left out. Functions of the cited files which are not named here are not modelled.

* `Affinity.v`: Affinity maps of two rectified images or descriptor maps: lv::computeImageAffinity and lv::computeDescriptorAffinity (without CUDA), modules/imgproc/src/imgproc.cpp lines 361-415 and 417-549. Values are reals. The mutual information and earth mover's scores are parameters. Iterations of the parallel loops write different entries and are taken in order.
* `Aligned.v`: The matrix allocator with aligned rows: lv::AlignedMatAllocator (modules/utils/include/litiv/utils/opencv.hpp:1459-1498) and the block allocator under it, lv::AlignedMemAllocator (modules/utils/include/litiv/utils/cxx.hpp:621-684).
* `Archive.v`: lv::write / lv::read, modules/utils/src/opencv.cpp:440-628, binary, LZ4 and plain text archives. Files are byte lists (little-endian host). cv::Mat::create and the element size table are OpenCV's (trusted transcription): sizes must be non-negative, at most 32 dimensions, type masked to 12 bits, a call with unchanged type and sizes keeps the buffer. Simplified: allocation never fails; LZ4 is an arbitrary pair of functions; the FILESTORAGE archive (cv::FileStorage) is not modelled.
* `ArrayLoader.v`: Packets that hold several matrices: modules/datasets/src/utils.cpp lines 314-326 (DataPrecacher::getPacket without a thread), 554-577, 597-606 (features), 663-686, 710-732 (array packets), 749-793 (getInputArray, getGTArray, loadFeaturesArray, saveFeaturesArray) and 1508-1608 (loadOutputArray, saveOutputArray). Packing is that of Model/Pack.v. The matrices that lv::unpackData returns are headers over the memory of the packet; that memory belongs to m_oLastReqPacket alone and is numbered, so a header can outlive it. Files are kept by the index of their packet (distinct indices have distinct names) and read back as they were written. The greying of masks is not modelled here: getGTROI of an array loader is empty unless overridden.
* `AutoBuffer.v`: lv::AutoBuffer of modules/utils/include/litiv/utils/cxx.hpp:722-817 and 1101-1375, over an explicit memory. A world holds any number of AutoBuffer objects (each with its own static capacity) and heap blocks. Cells are [option Z]; [None] is an indeterminate value. Every read or write goes through a block that must be live and long enough; otherwise, and on freeing a dead block, the result is a fault ([None]). Not modelled: alignment padding of the allocator, allocation failure, sizes near 2^64, element destructors.
* `Batch.v`: A work batch seen by its user: lv::IDataCounter (modules/datasets/include/litiv/datasets/utils.hpp:844-862, modules/datasets/src/utils.cpp:1295-1318), the consumers' push and resetMetrics (utils.hpp:870-945), and startProcessing/stopProcessing of WorkBatch (modules/datasets/include/litiv/datasets.hpp:81-116), one call after the other. Evaluation and saving in push are not part of it, nor are the empty startProcessing_impl/stopProcessing_impl and the precacher. Time is what the stop watch says, in some unit.
* `Bits.v`: Bit-level helpers of modules/utils/include/litiv/utils/math.hpp. Unsigned n-bit values are elements of N below 2^n; every operation that can leave the range is followed by an explicit reduction.
* `Bsds.v`: Evaluation of edge maps on BSDS500 (modules/datasets/src/impl/BSDS500.cpp, build without USE_BSDS500_BENCHMARK). Doubles are exact rationals; counters are unbounded except where they are summed over images.
  * the unique recalls with a precision each, BSDS500.cpp:575-586 (std::sort and std::unique by contract: any representative of equal recalls is as good; here the one met first is kept)
* `Canny.v`: modules/imgproc/src/EdgeDetectorCanny.cpp and include/litiv/imgproc/EdgeDetectorCanny.hpp: the edge masks and the confidence maps of EdgeDetectorCanny. cv::Canny is modelled from the squared gradient magnitudes and the pixels that pass its suppression of non-maxima, which are given (blur, Sobel operator and suppression are not modelled); cv::normalize by its definition, over rational numbers. Thresholds and factors are rational numbers.
* `Clique.v`: Cliques of the flow graph: 3rdparty/sospd/include/litiv/3rdparty/sospd/sos-graph.hpp, class IBFSEnergyTableClique; the bound of one clique, the reset of the flow, and the terminal weights (also submodular-ibfs.hpp, AddUnaryTerm, and flow-solver.hpp, the start of IBFSInit). Sets of the n nodes of a clique are assignments, unsigned of 32 bits, 0 <= n <= 31 (ASSERT of line 136); tables and integers are those of Model/Submodular.v: values do not overflow.
* `ColorMap.v`: getUniqueColorMap, modules/utils/include/litiv/utils/opencv.hpp lines 1116-1125 and 1316-1361, with the HSL conversion of Model/Hsl.v in exact arithmetic. The image is the list of its elements. Random numbers and the shuffle are given from outside.
* `Cosegm.v`: Regions of interest of video cosegmentation, IVideoCosegmentor_, modules/video/include/litiv/video/VideoCosegmentationUtils.inl.hpp:33-62 and 80-122. Masks and their counts are those of Model/RoiTable.v; an array is a list, and an empty matrix a mask without rows or columns. The result of each function holds what is left in its arguments or members also when an assertion fails, together with whether none did. Not modelled: the warning about grey images (lines 89-97), the check that images are continuous (line 88), the last masks and inputs, the counters of frames; the copies of lines 53, 60 and 102 are values here.
* `CudaToggle.v`: Algorithms that may run on a CUDA device: modules/utils/include/litiv/utils/algo.hpp lines 82-129 (IParallelAlgo_<CUDA>) with lv::cuda::init, modules/utils/src/cuda.cpp lines 48-76, without reset. The driver is the count of devices and which of them have the capabilities needed; its current device is one for the process (for the thread, of which there is one here). Its errors other than these are left out, and so is the text.
* `Dasc.v`: DASC descriptors with the recursive filter: modules/features2d/src/DASC.cpp lines 28-55 (tables), 261-368 (recursFilter, dasc_rf_impl) and lv::localDiff, modules/features2d/include/litiv/features2d.hpp lines 30-47, over the real numbers instead of float. An image is a function of row and column; it is the converted, possibly smoothed image of lines 287-297. The guided filter variant is not modelled.
* `Display.v`: Sizes, tiles, the cursor and the album of windows: modules/utils/src/opencv.cpp lines 240-435 (DisplayHelper: display, displayAlbumAndWaitKey, onMouseEventCallback). Sizes are (width, height). The products with float are exact here; widths and heights are small enough not to overflow. Drawing is not modelled.
* `Distances.v`: Integer distances of modules/utils/include/litiv/utils/math.hpp. Values are mathematical integers; a signed C++ operation whose exact result leaves its type is undefined ([None]); unsigned arithmetic is reduced modulo 2^w.
  * the value under the square root (uint64_t arithmetic), and its truncated square root; for 8-bit inputs it is below 2^24, so the float conversion is exact and the truncated float square root is the integer one
* `EdgeDetector.v`: EdgeDetectorLBSP, modules/imgproc/src/EdgeDetectorLBSP.cpp:40-357. Maps are functions of (row, column). [None] is an access outside a buffer, or lack of fuel in the flood fill. Not modelled: the pointer alignment of the SSE loads, Gaussian smoothing (sigma is always 0), the debug assertions.
  * levels from the coarsest to 0. The interleaving of level 0 with the labelling below is not modelled: labelling row r happens when rows r-2.. of level 0 are complete, and reads only these
  * the gradient map outside the image: padding of zeros (lines 182-183,258-259). Simplified: with an odd number of rows the row just below the image may hold a copy of coarser values; it is only read for the last two image rows, whose magnitude is 0
* `EdgeMatch.v`: The match of edge pixels with those of a ground truth as an assignment problem: modules/datasets/src/impl/BSDS500.cpp, build with USE_BSDS500_BENCHMARK. Masks are functions of (row, column); the squared distance is an integer, so dMaxDistSqr is its integer part; r is nMaxDist. double(u) > dMaxDist never holds where u*u+v*v <= dMaxDistSqr. The lists of outliers of kOfN (Model/KOfN.v) are parameters, as is what the solver returns.
* `Emd.v`: Earth mover's distances of normalized vectors, modules/utils/include/litiv/utils/math.hpp lines 811-844. Floating point numbers are exact rationals; the assertions of debug builds (normalized, same size) are not made.
  * std::nth_element, by contract: afterwards the element is the one of the sorted sequence; the order of the others is left open and does not change their sum
* `EvalArrays.v`: Evaluation of several streams at once: array and stereo accumulators and calculators of modules/datasets/src/metrics.cpp, their use by the evaluators of modules/datasets/include/litiv/datasets/eval.hpp and by groups of work batches (metrics.hpp:411-436). [None] is a failed assertion (an exception).
* `FastRand.v`: The LCG random generators of modules/utils/include/litiv/utils/math.hpp. A 32-bit register is its unsigned value in [0,2^32).
* `Flow.v`: The flow graph of cliques: 3rdparty/sospd/include/litiv/3rdparty/sospd/sos-graph.hpp (ArcIterator, ResCap, UpperBoundCliques for all cliques), flow-solver.hpp (BidirectionalIBFS::Augment, Push, ComputeMinCut) and submodular-ibfs.hpp (ComputeEnergy). Not modelled: the growth of the trees and the adoption of orphans (IBFS, Adopt, MakeOrphan), the layers, and the ASSERTs on the state of nodes.
* `FrameSubset.v`: Subsets of frames with temporal windows: modules/datasets/include/litiv/datasets/impl/litiv-stcharles2018.hpp lines 288-308, 520-605 and 889-905, vap-trimod2016.hpp lines 235-256, 307-343 and 436-441, litiv-bilodeau2014.hpp lines 235-240; and the packets that apps/cosegm/src/main.cpp evaluates, lines 447 and 633-782 (DATASET_EVAL_FINAL_UPDATE). A std::set of indices is the list of its elements in order. Not modelled: calibration data, the reading of files and the names of paths.
* `FusionTerms.v`: lv::gm::factorReducer (modules/utils/include/litiv/utils/opengm.hpp:312-343 for a clique, 345-375 for an opengm factor): how the cost of one clique of a graphical model is rewritten, for a fusion move, as the polynomial of 0/1 variables that the move's minimizer receives. Costs are integers without an upper limit (the code uses int32 and signed additions); both overloads run the same loops, and differ only in where node indices come from, so one definition stands for the two.
* `Geometry.v`: lv::copyValidPixelsTo (modules/utils/src/opencv.cpp:117-170) and lv::shift (opencv.cpp:753-827). Images are total functions with their size; only the entries inside the size are meaningful. The output image is assumed not to share memory with the input. cv::Mat::copyTo, countNonZero, copyMakeBorder and sepFilter2D follow the OpenCV documentation.
* `GlBuffers.v`: Stacks of images read back from textures and their formats, numbered listings of shaders, and preallocated files: modules/utils/include/litiv/utils/opengl.hpp:127-408, modules/utils/src/opengl.cpp:157-198, modules/utils/src/platform.cpp:207-228. Bytes are integers. Not modelled: the reading from the device, constants of formats outside the tables (the default cases), and failures to open files.
* `GlEval.v`: Evaluation of binary classifications on the graphics card: the compute shader of GLBinaryClassifierEvaluator (modules/datasets/src/eval.cpp:286-404), the buffer of atomic counters of GLImageProcEvaluatorAlgo (modules/utils/src/opengl-imgproc.cpp:546-790) and their use by the asynchronous evaluator (modules/datasets/include/litiv/datasets/eval.hpp:250-300). A shader invocation runs alone; the order of the invocations of a frame is arbitrary. Memory barriers, textures and display are not modelled. [None] is a failed assertion or a call the graphics library refuses.
* `GlPipe.v`: The asynchronous consumer that feeds an algorithm and an evaluator on the graphics card: IAsyncDataConsumer_<.,GLSL> (modules/datasets/include/litiv/datasets/utils.hpp:955-1201), the rings of textures and pixel buffers of GLImageProcAlgo and GLImageProcEvaluatorAlgo (modules/utils/src/opengl-imgproc.cpp:20-58, 110-180, 200-345, 590-757), and the region of interest the evaluator keeps (modules/datasets/include/litiv/datasets/eval.hpp:277-284). What an algorithm computes is not looked at: an event says which images it was given. Images are abstract; [None] is an empty matrix or undefined texture memory. Images fetched from the loader are values here (the code shares their data until the next request). Outputs go through a pixel buffer that is read back in the same call (opengl-imgproc.cpp:312-330, 380-388), so an output is the one of the images of its event.
* `GlRandom.v`: Random numbers in shaders. GLShader::getShaderFunctionSource_urand and _urand_tinymt32, modules/utils/src/opengl-shaders.cpp lines 801-874; lv::gl::TMT32GenParams::initTinyMT32Generators, modules/utils/src/opengl.cpp lines 200-235.
* `GlScan.v`: Compute shaders that sum rows and transpose images: GLShader::getComputeShaderSource_ParallelPrefixSum, _ParallelPrefixSum_BlockMerge and _Transpose, modules/utils/src/opengl-shaders.cpp lines 578-677. Invocations of a work group run as in Model/Kernels.v. One channel; the numbers are not reduced modulo 2^32 (the shaders only add, so that results modulo 2^32 are these reduced). Images are read as zero outside, and not written there.
* `GlTile.v`: Image tiles in the shared memory of work groups and the binary median blur of LOBSTER on the graphics card: GLShader::getComputeShaderFunctionSource_SharedDataPreLoad and _BinaryMedianBlur, modules/utils/src/opengl-shaders.cpp lines 679-767; BackgroundSubtractorLOBSTER_GLSL::getComputeShaderSource_PostProc, modules/video/src/BackgroundSubtractorLOBSTER.cpp lines 279-303 (with BGSLOBSTER_GLSL_USE_SHAREDMEM). One channel. Images are read as zero outside, and not written there (image_load of Model/GlScan.v).
* `Gmm.v`: Gaussian mixture models: parameter estimation of lv::GMM, modules/utils/include/litiv/utils/math.hpp lines 1147-1364, and its use on images, modules/imgproc/include/litiv/imgproc.hpp lines 211-309. Exact rationals; the densities are in Model/GmmDensity.v. The dimension n is 1, 2 or 3, for which determinant and inverse have closed forms (math.hpp:1056-1061, 1086-1117). Counts are unbounded.
* `GmmDensity.v`: Densities of Gaussian mixtures, modules/utils/include/litiv/utils/math.hpp lines 1230-1295, over the real numbers.
* `GpuAffinity.v`: Affinity maps of descriptor maps on the graphics card: the kernels of modules/imgproc/cuda/affinity.cu lines 24-193, and how lv::computeDescriptorAffinity launches them, modules/imgproc/src/imgproc.cpp lines 417-462 and 553-606. Warps have 32 threads. Arrays: 0 shared floats (aDescCalcLUT, afAffinities), 1 shared counts (anCounts), 2 the row of the output map for the pixel (aAffArray), 3 and 4 local variables by thread. The table of descriptor pointers (aDistCalcLUTs) is written before a barrier and then only read, and comes in as what it says. Numbers are reals.
* `GpuLobster.v`: The LOBSTER background subtractor on the graphics card: BackgroundSubtractorLOBSTER_GLSL, modules/video/src/BackgroundSubtractorLOBSTER.cpp lines 46-276 and 331-360, with LBSP::getShaderFunctionSource, modules/features2d/src/LBSP.cpp lines 400-453, and the distances of modules/utils/include/litiv/utils/math.hpp lines 768-808. One or four channels, as the shaders demand. The model is one buffer of words, seen by the host (refreshModel, getBackgroundImage) and by the shader. Invocations run in any order, one access to the buffer at a time; frames one after the other. Random numbers of an invocation are any words (Model/GlRandom.v). The shared array of pixels is the image around the group (C107). A frame is a flat buffer as in Model/Lobster.v; the region keeps 2 pixels from the border of the frame (IIBackgroundSubtractor::initialize_common). The median blur of the mask is in Model/GlTile.v. Not modelled: BGSLOBSTER_GLSL_USE_BASIC_IMPL, missing memory barriers between frames.
  * getBackgroundImage, lines 331-360: the sums are exact in single precision for fewer than 65536 samples. Channel swap ch of the image
* `GpuShape.v`: Shape context descriptors on the graphics card: the kernel of modules/features2d/cuda/SC.cu lines 28-161, how it is launched (modules/features2d/src/SC.cpp lines 155-198 and 518-549), and scdesc_norm (lines 607-626). The rest of the extractor is in Model/ShapeContext.v. Warps have 32 threads. Arrays: 0 shared floats (aTmpDesc, then aTmpLUT), 2 the variable fSum of each thread, 3 and above what each thread exchanges by shuffles. Numbers are reals, None is NaN or infinite. A shuffle is a step in which every thread of the warp reads the old registers and sets its new one.
* `GpuSlic.v`: Superpixels on the graphics card: the kernels of modules/imgproc/cuda/SLIC.cu lines 65-235, and SLIC::segment, assignment and update, modules/imgproc/src/SLIC.cpp lines 138-190. SLIC::initialize and enforceConnectivity are in Model/Slic.v. Numbers are reals; positions are (row, column). The frame has the size given to initialize. The threads of a kernel run in any order: within one kernel they read what no thread writes, and meet only in atomic additions.
* `Greying.v`: The greying of masks before they are written, lv::IDataArchiver_<NotArray>::saveOutput, modules/datasets/src/utils.cpp:1484-1498 (the same code at 1562-1571 and 1590-1599). The input is an 8-bit image; pixels and the region of interest are read with at_ of Model/Metrics.v.
* `Groups.v`: Trees of work batches: lv::DataGroupHandler (modules/datasets/src/utils.cpp:184-297), its parsing of directories, the paths given to batches (utils.cpp:171-178, modules/datasets/include/litiv/datasets.hpp:158-175) and printDataStructure (utils.cpp:104-117 and 1644-1652). The file system is what lv::getSubDirsFromDir (modules/utils/src/platform.cpp:116-169) lists: the sorted names of the sub-directories of a path. Strings are lists of character codes.
* `GtIndex.v`: The ground truth of packets by the numbers in file names: modules/datasets/include/litiv/datasets/impl/PETS2001.hpp lines 77-81, Wallflower.hpp lines 67-94, litiv-stcharles2018.hpp lines 592-603 and 948-978. Characters are their codes; m_mGTIndexLUT is a list of pairs, the latest first.
* `GtStack.v`: The ground truths of an image as one mask: modules/datasets/include/litiv/datasets/impl/BSDS500.hpp lines 82-149 (parseData, getRawGT). Images are (rows, columns, pixels); text is lists of characters, the slash is 47 and the backslash 92. dScale is num/den with den > 0, exact here and a double in the code; cv::resize with INTER_NEAREST is a parameter.
* `Histogram.v`: lv::calcHistCounts, lv::calcMedianValue and the masked lv::medianBlur, modules/imgproc/src/imgproc.cpp:154-257. [None] is a read past the end of the histogram.
* `Hsl.v`: HSL conversions, modules/utils/include/litiv/utils/opencv.hpp:1164-1213, in exact rational arithmetic (the code uses float).
* `Integral.v`: lv::integral (NEON path), lv::binaryIntegral, lv::binaryMedianBlur and lv::binaryConsensus, modules/imgproc/src/imgproc.cpp:259-360 and 610-698. Images are functions of (row, column).
* `Interp.v`: find_nn_index, interp1 and linspace of modules/utils/include/litiv/utils/math.hpp over exact rationals (rounding of float/double instantiations is not modelled).
* `JointHist.v`: lv::calcJointProbHist, modules/features2d/include/litiv/features2d.hpp:77-151. Images are lists of equal length (the elements in iteration order) of int-convertible values. A [cv::SparseMat_<int>] is an association list in insertion order (its hash iteration order is not modelled), a dense [cv::Mat_<int>] a row-major list. Simplified: the float histograms are exact quotients. [None] is a failed assertion, a signed overflow or an access outside a matrix.
* `KOfN.v`: k of n numbers at random: 3rdparty/bsds500/src/kofn.cpp. The random numbers are given as lists, real ones as fractions; values is the array, the pointer values + leftK an offset. The choice by k * log(k) between the two ways is a parameter.
* `Kernels.v`: Thread blocks on the graphics card (CUDA). The threads of a block run their instructions in any interleaving up to the next barrier (__syncthreads), where all have to arrive. Used for the kernels of modules/imgproc/cuda/affinity.cu and modules/features2d/cuda/SC.cu. Numbers are reals; global memory that is only read comes in as constants.
* `KeyPoints.v`: Keypoints with fractional coordinates: which ones are kept, and where their descriptors are computed and put. modules/features2d/src: LBSP.cpp lines 154-227 (compute with keypoints), 239-250, 265-315 (compute2, detectAndCompute, reshapeDesc), 362-364 (validateKeyPoints), LSS.cpp lines 143-177, 217, 242-246, DASC.cpp lines 152-225, MI.cpp lines 95-154, and lv::validateKeyPoints, modules/utils/include/litiv/utils/opencv.hpp lines 1104-1117. From OpenCV: KeyPointsFilter::runByImageBorder and runByPixelsMask; a cv::Point made from a cv::Point2f is rounded to the nearest integer, ties to even. Coordinates are rational numbers (every float is one), a position is (row, column).
* `Lbsp.v`: LBSP descriptors, modules/features2d/include/litiv/features2d/LBSP.hpp and modules/features2d/src/LBSP.cpp.
  * LBSP.cpp:317-361 calcDescImgDiff: fScaleFactor = 255/16 = 15.9375 and its products with 0..16 (also divided by 3) are exact in binary32
* `Linalg.v`: LU, determinant and invert of modules/utils/include/litiv/utils/math.hpp:996-1130. Element arithmetic is a parameter (exact rationals or truncating integers); rounding is not modelled. Matrices are functions of (row, column): the row stride arithmetic of the C++ is not modelled for LU, while the closed-form 2x2/3x3 inverses work on a flat memory so that overlapping input and output can be expressed.
* `Lobster.v`: The LOBSTER background subtractor on the CPU, modules/video/src/BackgroundSubtractorLOBSTER.cpp lines 410-600: initialization, frame processing, model refresh and background image, on images of 1, 3 or 4 channels (all that initialization accepts). Images and models are flat buffers without row gaps (checked at initialization and in line 466); an access outside a buffer is [None]. Random numbers are taken in order from a sequence standing for rand(), whose values are non-negative. The learning rate is given rounded up, an infinite one being 2^64-1 (line 470). The table of texture thresholds is given (BackgroundSubtractorLBSP.cpp:29-30, 42-43: see Model/Lbsp.v). The median filter on the final mask (line 578) is an arbitrary function. m_oLastDescFrame only passes values to the models and is left out. The GPU version is in Model/GpuLobster.v. Not modelled: getBackgroundDescriptorsImage.
  * lines 583-600: one byte of the background image; sums are exact here
* `LogPolar.v`: lv::getLogPolarMask, modules/utils/src/opencv.cpp:33-115. The transcendental parts are parameters: the rounded angle in degrees and the radial bin of an offset (Chatfield), the unreduced angular index and the radial bin (Lienhart); everything done with them afterwards is modelled. None stands for the initial value -1.
* `Lss.v`: Local self-similarity descriptors: modules/features2d/src/LSS.cpp lines 29-51 (constructor), 97-141 (accessors, compute2), 213-338 (both ssdescs_impl and ssdescs_norm), with the static noise level that is compiled in (line 25). Bins are real numbers instead of floats, cv::matchTemplate gives exact sums of squared differences, and an image is what comes out of the optional smoothing. The lookup map is a parameter: its raster of entries (None for -1) with the first and last index that lv::getLogPolarMask reported (Model/LogPolar.v). Keypoints have integer coordinates and have already passed the border filter (see Model/KeyPoints.v for both). Positions are (row, column).
* `MatSize.v`: lv::MatSize_<Tinteger>, modules/utils/include/litiv/utils/opencv.hpp:318-562. The stored vector is [dims; s0; s1; ...]; as every constructor fills its first entry with the number of sizes, an object is modelled by the list of its sizes (values of Tinteger). Simplified: dimension counts are assumed representable in Tinteger.
* `Metrics.v`: Evaluation counters and metrics, modules/datasets/src/metrics.cpp and modules/datasets/include/litiv/datasets/metrics.hpp. Doubles are replaced by exact rationals (a square root by its argument); 64-bit counters wrap.
  * metrics.cpp:156-168 over the pixels in order; the conversion of integers to float is taken as exact
* `MoveLoop.v`: The schedule of moves of the inference of SegmMatcher: modules/imgproc/src/SegmMatcher.cpp lines 3156-3462, as configured (lines 32-43). What the moves do is a parameter: E is all of the state but the counters of the loop.
* `MutualInfo.v`: lv::calcMutualInfo, modules/features2d/include/litiv/features2d.hpp:162-199, over the real numbers (float/double rounding not modelled).
* `Names.v`: Names of packets and the files they go to: lv::IDataHandler::getInputName, getOutputName, getFeaturesName (modules/datasets/src/utils.cpp:36-58), lv::IDataProducer_<DatasetSource_Image>::getInputName (1139-1145), getOutputName of CDnet (modules/datasets/include/litiv/datasets/impl/CDnet.hpp:108-112), and saveOutput, loadOutput and their array versions (utils.cpp:1461-1613) on a file system that maps paths to contents. Strings are lists of character codes; image compression is taken as lossless.
* `Nms.v`: lv::nonMaxSuppression and lv::isLocalMaximum_*, modules/imgproc/include/litiv/imgproc.hpp:120-208.
* `Pack.v`: lv::packData / lv::unpackData, modules/utils/src/opencv.cpp:630-705. A matrix is given by type, sizes and its elements' bytes in raster order (copyTo reads the elements whatever the row stride). Unpacked matrices are headers over the packet's buffer; only their content is modelled.
* `Paths.v`: lv::filterFilePaths, lv::getFilesFromDir and lv::getSubDirsFromDir, modules/utils/src/platform.cpp:61-182 (the part for systems other than Windows). A directory is the list of what readdir gives, in any order: names and kinds.
* `Pawcs.v`: The PAWCS background subtractor, modules/video/src/BackgroundSubtractorPAWCS.cpp, on images of 1 or 3 channels: initialization, also of an object that was used before, model refresh, frame processing and background images. Dictionaries are those of Model/WordDict.v, buffers, descriptors and textures those of Model/Lobster.v and Model/SubsenseFrame.v, what is kept for a pixel is the record of Model/Subsense.v. Floats are exact rationals; counters of frames and occurrences are integers that do not wrap around; random numbers are taken in order from a sequence. The morphological operations and the median filter (lines 1447-1459) are arbitrary functions of the raw mask. A frame gives the three ratios of the frame-level component (lines 1478-1493), which are arbitrary numbers. The number of global words (lines 449-467) is a parameter, the size of the median filter is left out. The descriptors of global words are never read and left out. Not modelled: images of 4 channels (accepted, and read as if they had 3), a change of the number of channels of an object, the debug display.
* `Pbas.v`: The feedback loop of one pixel of the PBAS background subtractors, modules/video/src/BackgroundSubtractorPBAS.cpp, with the compilation switches of BackgroundSubtractorPBAS.hpp (BGSPBAS_USE_R2_ACCELERATION is 0). Floats are exact rationals. The contents of the samples are not modelled here but in Model/PbasFrame.v: a frame gives the distances of the pixel to its samples, whatever they are.
* `PbasFrame.v`: Whole frames in the PBAS background subtractors, modules/video/src/BackgroundSubtractorPBAS.cpp: initialization and frame processing of the one-channel and three-channel versions, with the contents of the samples; the feedback of one pixel is that of Model/Pbas.v. Points are (x, y). BGSPBAS_USE_SELF_DIFFUSION is 1. Random numbers are taken in order from a sequence standing for rand(), whose values are non-negative. The gradient images (blur, Scharr operator and mean of absolute values, lines 80-90 and 116-126) are given with the frames. Not modelled: the median filter on the final mask (line 264), getBackgroundImage; the mask given by the caller has no row gaps.
* `Precacher.v`: lv::DataPrecacher, modules/datasets/src/utils.cpp:302-538, and its worker thread, as a transition system. One step is what a thread does between two points where it can be overtaken: the mutex m_oSyncMutex is held by the worker except inside wait_for (line 469) and by the client in getPacket except inside wait_for (line 334), so a step of one thread is atomic for the other. The client is one thread (the header forbids concurrent calls). A matrix is its bytes (its header is copied verbatim); the data loader callback is a function of the index, as the header demands.
* `PrimalDual.v`: The primal-dual moves of SegmMatcher, which it uses for resegmentation (modules/imgproc/src/SegmMatcher.cpp:2836-3067): the starting duals, the problem that is handed to the submodular solver, and what is done with its answer. The solver itself is not modelled: its labels and its reparametrization are parameters. Integers are unbounded; assertions of debug builds give None where the proofs have to show that they hold. A node is named by its index in the labeling.
* `Producer.v`: How packets of image and video work batches are loaded: modules/datasets/src/utils.cpp lines 314-326 (DataPrecacher::getPacket without a thread), 554-557 (getInput), 609-661 (transformImagePacket and getInput_redirect for loaders without arrays), 690-709 (getGT_redirect), 833-839, 857-888, 897-966 (the default video producer) and 1092-1125, 1151-1202 (the default image producer). A matrix is a two-dimensional image; None is an empty one. Channel values are integers. cv::imread gives the same for a file each time. From OpenCV: cvtColor to BGRA sets the largest value of 8-bit and 16-bit images, or 1, and rejects other depths; the weights of COLOR_BGR2GRAY are a parameter; resize with INTER_NEAREST takes the pixel below the scaled coordinates (as exact rationals) and fails for an empty target; cv::VideoCapture gives the frames in order from the position set by CAP_PROP_POS_FRAMES; what it does for a position that is not a frame is a parameter.
* `Ptz.v`: The virtual PTZ camera: points of the view and directions on the sphere. vptz::PTZPointXYtoHV and PTZPointHVtoXY, modules/vptz/src/virtualptz.cpp lines 782-835 and 843-922, and GTTranslator::GetGTBoundingBox (lines 355-389; GetGTTargetPoint, lines 340-353, is PTZPointHVtoXY in the current view). Doubles are reals; angles are in degrees.
* `PtzCamera.v`: The state of the virtual PTZ camera: vptz::Camera Set, GoToPosition, BeginPlaying, WaitDelay and the timing of GetFrame, modules/vptz/src/virtualptz.cpp lines 128-200 and 229-297, and the constructor without a camera and UpdateViewAngle of GTTranslator (lines 315-338). Doubles are reals; points in time are the tick count in seconds, passed in. Rendering, sleeping and the reading of the video are left out (whether a frame could be read is an input).
* `PtzEval.v`: The evaluation of trackers on the virtual PTZ camera: vptz::Evaluator Setup (its frame indices, lines 708 and 732-751), BeginTesting, GetNextFrame, UpdateCurrentResult, EndTesting and GetInitTargetBBox, modules/vptz/src/virtualptz.cpp lines 516-572 and 610-703. The translated ground truth of a frame comes from Model/Ptz. Doubles are reals, with None for what is not a number or infinite; areas are taken not to overflow. Files, the averages over sequences and the text output are left out.
* `Reducer.v`: lv::gm::factorReducer, modules/utils/include/litiv/utils/opengm.hpp:313-343 and 346-376 (same algorithm for an opengm factor). Energies are exact integers (the C++ TValue is a floating point type). The order is any natural number: 1u<<nOrder is assumed not to overflow. An energy function receives the list of labels of the clique variables.
* `ResegmCosts.v`: The costs of the resegmentation graph of SegmMatcher (modules/imgproc/src/SegmMatcher.cpp): the shape distances of the masks (calcShapeDistFeatures, lines 2520-2542) and what updateResegmModel (lines 1827-1956, 1970-2047, 2126-2153) makes of them, of the densities of the colour models, of the gradients and of the disparities. Over the real numbers instead of float and double; costs are integers without an upper limit (the code uses int32). cv::distanceTransform (precise, L2) and cv::GaussianBlur (3x3, borders reflected without repetition) are modelled by their definitions. Two layers, as in Model/ResegmGraph.v.
* `ResegmGraph.v`: The resegmentation graph of SegmMatcher (modules/imgproc/src/SegmMatcher.cpp:1066-1118, 1678-1765, 1957-2161): its nodes are the valid pixels of two cameras in two temporal layers, its cliques are the pairs of neighbours and, from the second frame on, the pairs that follow the motion from the older layer to the newer one. The values of the cost functions are parameters (integers); so are the masks and the motion. updateResegmModel(true) is modelled, which is called once for each frame and builds the cliques and the table of memberships.
* `RoiTable.v`: Regions of interest and pixel tables of background subtractors, IIBackgroundSubtractor, modules/video/src/BackgroundSubtractionUtils.cpp:28-50 and 70-150. A mask is a function of row and column; cv::dilate with an empty kernel and n iterations is the maximum over the (2n+1)x(2n+1) square inside the image, by its documentation; 255/2 is rounded to the even 128. Not modelled: the warning about grey images (lines 72-82) and the conversion of indices to int, exact for images of less than 2^31 pixels.
* `RootSift.v`: rootSIFT and sparseness, modules/utils/include/litiv/utils/math.hpp lines 846-897, over the real numbers; None: NaN or an infinity in the result, or a failed lvAssert_. Integer element types of rootSIFT, which nothing rejects, are modelled by truncation.
* `Sampling.v`: Sample and neighbour coordinates, modules/utils/include/litiv/utils/opencv.hpp. Coordinates are mathematical integers: the sums formed stay within a few units of the origin coordinates, so int overflow is only possible for origins within 4 of INT_MIN/INT_MAX, which is not modelled.
* `Semaphore.v`: lv::Semaphore, modules/utils/include/litiv/utils/cxx.hpp:988-1045, used by any number of threads, as a transition system. Every member function but count() works with m_oMutex locked, which it lets go of only inside the waits of the condition variable: a step is what happens between two such points. Waiting threads sleep until they are notified, their time is over, or they wake up spuriously. count() (lines 993-995) reads m_nCount without the mutex; it is not modelled.
* `ShapeContext.v`: Shape context descriptors with absolute radii and no rotation invariance: modules/features2d/src/SC.cpp lines 28-79 (constructor), 212-312 (compute2, detectAndCompute), 406-435 (scdesc_fill_contours) and 518-606 (scdesc_fill_desc_direct, without CUDA), and the radial part of lv::getLogPolarMask (Lienhart), modules/utils/src/opencv.cpp lines 50-77. Keypoints have integer coordinates here, and bins hold counts (what is added to the initial value of all bins). cv::findContours is not modelled: a shape comes with the points it found. The final normalization and the variants with relative radii or rotation invariance are not modelled. Positions are (row, column).
  * SC.cpp lines 52-56: a filled circle of radius m_nOuterRadius+2, taken as the disc
* `Simd.v`: SSE registers and the helpers of modules/utils/include/litiv/utils/simd.hpp. A 128-bit register is a little-endian list of 16 bytes (integers in [0,256)); each instruction is defined on bytes or on lanes recombined from bytes. Semantics of the individual instructions are taken from the Intel reference; that is part of the trusted transcription.
  * simd.hpp:121-129; the SSE2 branch groups as (lo+hi)<<16. Simplified: the left shift of an int past bit 31 (undefined before C++20) is taken to wrap
* `Slic.v`: Superpixel clean-up of SLIC (modules/imgproc/src/SLIC.cpp).
  * SLIC::initialize, SLIC.cpp:73-88: superpixel diameter and superpixel count; None is the integer division by zero. The float square root is exact here: (int)sqrt(nbPx/(float)n) is the integer square root of the integer quotient.
* `Sospd.v`: Multilabel energies and the primal-dual loop over them: 3rdparty/sospd/include/litiv/3rdparty/sospd/multilabel-energy.hpp and sospd.hpp (MultilabelEnergy, PottsClique, SoSPD). Values are unbounded integers (REAL is int in this project, see C85 for the copy of this loop in SegmMatcher). The array m_heights is not kept: a height is the sum that ComputeHeight forms. Not modelled: printing, the value LowerBound prints.
* `StereoCosts.v`: The costs of the stereo graph of SegmMatcher (modules/imgproc/src/SegmMatcher.cpp): the table of pairwise costs, the pairs of neighbours, and the cost of each disparity of each pixel, as the shipped switches of the file select them (median distances on, occluded labels and background heuristics off, squared differences). Affinities, saliencies and weights are rational numbers and their products are exact (the code multiplies floats); costs are integers without an upper limit (the code uses int32). How affinities and saliencies are computed is in Model/Affinity.v.
* `StereoMoves.v`: The stereo half of SegmMatcher (modules/imgproc/src/SegmMatcher.cpp): its disparity labels, the association buffers that record which pixels of the primary image are matched to each column of the other one, the lookup tables of the uniqueness cost, the initial labeling, the cost of a fusion move, the move itself, and the value of the energy. [None] is an access outside an array or a debug assertion that fails. Costs are integers without an upper limit (the code uses int32). The pairwise and unary cost functions are parameters, which Model/StereoCosts.v fills (SegmMatcher.cpp:1144-1405); not modelled are the reduction to quadratic terms and the QPBO solver (third-party code), whose answer is a parameter of the move.
* `StereoProjection.v`: SegmMatcher::GraphModelData::resetStereoLabelingByProjection (modules/imgproc/src/SegmMatcher.cpp:1464-1549): the disparity labels of one camera from those of the other: votes, a 9x9 median, and the filling of holes. The rows are taken in order (the code may run them in parallel; they share nothing). cv::medianBlur is modelled by its definition, with replicated borders; displays are not modelled. [second] says that the base camera is the second one.
* `Strided.v`: Views of matrices with steps: modules/utils/include/litiv/utils/opencv.hpp lines 605-637 (getBasicMat, getSubMat), 692-735 (squeeze), 813-837 (concat) and 1127-1163 (isEqual, isNearlyEqual). Memory is addressed in scalars, as are steps; scalars are integers, and the difference of two is exact as double.
* `Strings.v`: String helpers of modules/utils/src/cxx.cpp and cxx.hpp; a string is a list of characters, a character a number 0..255.
* `SubPix.v`: Values between pixels: modules/utils/include/litiv/utils/opencv.hpp lines 638-658 (each channel) and 670-684 (getSubPix). Coordinates are x/d and y/d for integers x, y and a positive d; arithmetic is exact here and in float there.
* `Submodular.v`: Set functions as tables: 3rdparty/sospd/include/litiv/3rdparty/sospd/submodular-functions.hpp (all but the norms DiffL1, DiffL2 and DiffLInfty). A set of elements 0..n-1 is an assignment, an unsigned of 32 bits, 0 <= n < 32; a table is a function of assignments, of which only [0, 2^n) exists. Values are integers without bounds (SegmMatcher.hpp line 33: int32_t; the overflow of values is not modelled). The checks of sizes by ASSERT (n < 32, the length of the tables) are assumptions here.
* `Subsense.v`: The feedback loop of one pixel of the SuBSENSE background subtractor, modules/video/src/BackgroundSubtractorSuBSENSE.cpp, and its frame-level component. Floats are exact rationals, kept in lowest terms; a division by zero yields an infinity. The contents of the samples are not modelled: a frame gives the distances of the pixel to its samples, whatever they are. Neither are the morphological operations on the segmentation (lines 541-553): a frame gives their result at the pixel. The frame counter does not wrap around.
* `SubsenseFrame.v`: Whole frames of the SuBSENSE background subtractor, modules/video/src/BackgroundSubtractorSuBSENSE.cpp lines 84-613, on images of 1 or 3 channels: initialization, model refresh and frame processing with the contents of the samples. The feedback loop of a pixel and the frame-level component are those of Model/Subsense.v, buffers and random numbers those of Model/Lobster.v (an access outside a buffer is a fault). Floats are exact rationals. The morphological operations and the median filter (lines 536-553) are arbitrary functions of the raw mask; a frame gives the mean difference of the down-sampled averages (lines 569-584), which is an arbitrary non-negative number. Whether the image counts as large and its spread (lines 111-128) are parameters, whatever its size. Not modelled: images of 4 channels (accepted, and read as if they had 3), the debug display, the background images (as in LOBSTER).
* `Tables.v`: Aligned allocation sizes and lookup tables of modules/utils/include/litiv/utils/cxx.hpp.
  * LUT, cxx.hpp:821-949, over exact rationals. [T] is Ty; [cast] is the conversion of a double to Tx (identity for floating Tx, truncation for integer Tx). Simplified: rounding of double arithmetic is not modelled.
* `Thinning.v`: lv::thinning, modules/imgproc/src/imgproc.cpp:25-152. An 8-bit image is a function of (row, column); entries outside [0,rows)x[0,cols) are never read. [None] is an access outside an array (undefined behaviour) or, for the outer loop, lack of fuel.
* `Vectors.v`: Vector helpers of modules/utils/include/litiv/utils/cxx.hpp:234-400.
* `Vibe.v`: The ViBe background subtractors, modules/video/src/BackgroundSubtractorViBe.cpp: initialization and frame processing of the one-channel and three-channel versions. Points are (x, y). Random numbers are taken in order from a sequence standing for rand(), whose values are non-negative. The learning rate is given rounded up (lines 84 and 151). getBackgroundImage is not modelled.
* `Warp.v`: The image warper based on moving least squares: ImageWarper of modules/imgproc/src/imwarp.cpp (whole file). Doubles are exact rationals here; a division by zero gives a NaN, which is kept apart. Integers are unbounded: the loop counters of the code are int and stay below width + 2*grid size.
* `WordDict.v`: Dictionaries of words of the PAWCS background subtractor, modules/video/src/BackgroundSubtractorPAWCS.cpp: words live in a vector (m_voLocalWordList_1ch, m_voGlobalWordList_1ch and those of 3ch) filled in order through an iterator (m_pLocalWordListIter_1ch...), and a vector of pointers (m_vpLocalWordDict, m_vpGlobalWordDict) gives each dictionary its words. Vectors are blocks of memory: clearing one and resizing it keeps the block if it has room and moves to a new one otherwise, with fresh words in both cases; pointers into an older block, or past the words there are, must not be followed. Words are of any type; weights, comparisons and new words are given.
* `WorkerPool.v`: lv::WorkerPool, modules/utils/include/litiv/utils/cxx.hpp:402-423 and 1053-1099, with its worker threads, any number of threads calling queueTask() (tasks themselves may), and the destructor, as a transition system. A step is what a thread does between two points where it can be overtaken; m_oSyncMutex is let go of in the wait of line 1091, around the task (lines 1095-1096), and between the parts of queueTask. A task is a number; it returns or throws (which its std::packaged_task keeps for the future) as the schedule says.
* `Writer.v`: lv::DataWriter, modules/datasets/src/utils.cpp:1324-1455, with its worker threads and any number of threads calling queue(), as a transition system. A step is what a thread does between two points where it can be overtaken: while it holds m_oSyncMutex no other thread does, and it lets go of it only in the waits of lines 1363 and 1433, around the callback (lines 1439-1443) and at the end of queue (line 1387). Waiting threads sleep until they are notified (or wake up spuriously). A packet is its bytes. The callback returns or throws as the schedule says.
  * lines 1395-1407; the fields are set without the mutex: taken as one step
* `YCbCr.v`: Packed YCbCr conversion, modules/utils/include/litiv/utils/opencv.hpp:1216-1307. The colour space conversions around it (cv::cvtColor, cv::split, cv::merge) are not modelled: the model starts and ends at the three 8-bit planes of one row.

### What is not modelled

* Rendering, video input and result files of `vptz` (virtual PTZ camera), its GUI. Whole modules: OpenGL and CUDA code of `utils` and of the other modules (all `*.cu` except the affinity kernels of C103, the shape context kernel of C104 and the superpixel kernels of C105, `opengl*`, `GL` branches, except the binary classification evaluator of C99, the asynchronous consumer of C100 and the building blocks of compute shaders in C106 to C108 and LOBSTER in C109: textures, barriers, display and the shaders of the other algorithms are left out), `console.hpp`,
  `kinect.hpp`, `algo.hpp` but for the switch of C123, `samples/`, and `apps/` but for the order of pushes in cosegm (C115).
* `imgproc`: of `SegmMatcher.cpp` the image features, the colour models of resegmentation, and the solvers (QPBO, submodular flow; the set functions of the latter are in C110 and C111, the cliques of its graph in C112, augmenting paths and minimum cuts in C113, the primal-dual moves over it in C114, the schedule of moves in C119, not the growth and repair of its trees, nor LowerBound) with the reduction to quadratic terms; the blur, gradients and suppression of cv::Canny, the smoothing of temporal differences, cv::kmeans (its labels are a parameter of C73); the displays
  of SLIC (C70 takes the labels of C105 as an arbitrary input).
* `features2d`: relative radii, rotation invariance, normalization and EMD costs of shape context, the smoothing of LSS, and the guided filter of DASC except the parts named above.
* `video`: what is named as left out for ViBe, PBAS, LOBSTER, SuBSENSE and PAWCS (median filter and morphology, the downscaled frames of the frame-level component, 4-channel images).
* `datasets`: parsing of the concrete datasets except the names and paths of C53, C54, C58, the frame subsets of C115, the ground truth indices of C118 and the stacked ground truths of C122, video decoding (a list of frames in C95), the text of evaluation reports, of the BSDS500 benchmark build
  (`USE_BSDS500_BENCHMARK`) the CSA solver and `3rdparty/bsds500` but for `kofn.cpp`.
* Everywhere: exceptions of the allocator, printing, timing, debug-only assertions (release behaviour is modelled, `lvAssert_` which throws in
  every build is an outcome), and memory-model effects below the level of the mutex (`Semaphore::count()` reads without it).
