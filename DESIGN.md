# Formal model of WaveletBuffer in Rocq (Coq 8.16.1) — design

Source: /repo (C++), read as text. Properties: `properties.jsonl` (C01..). Status per property: `MANIFEST.json`.

## 1. Layout of the development (rocq/theories)

| file group | contents |
|---|---|
| `M_*.v` | the model: computable Gallina functions, one per C++ function, each with a comment citing file:lines in /repo. No lemmas. |
| `S_*.v` | small specifications, independent of the model's helpers (indices, sums, clamping, means, ...). |
| `P_*.v` | lemmas and proofs. |
| `T_*.v` | the property theorems only; each is closed by a lemma and followed by a non-vacuity `Example` and `Print Assumptions`. |

## 2. Modelling decisions

* **Outcomes.** A C++ call ends in `Ok v`, `Throw` (a C++ exception) or `UB` (out-of-range access, violated library
  precondition, failed `assert`, uninitialised read). Every element access in the model is bounds-checked and gives `UB` when
  it is out of range, so "= Ok v" theorems are also memory-safety theorems.
* **Numbers.** The code is written once, over a type class `Arith T` (zero, +, *, unary -, decimal literal, sqrt(2)*x,
  final scaling). Instances: exact reals `R`; IEEE binary32 (M_Binary32: Flocq's `binary_float 24 128`, with overflow, NaN and
  gradual underflow, double intermediates where the source has them); any arithmetic on reals with bounded rounding errors. Properties that do not depend on arithmetic
  (shapes, frames, serialization, pass-through) are proved for *every* instance, so they hold in particular for IEEE floats.
* **Integers.** Parameter fields are `Z` in [0,2^64) (enum: any int32); sizes of in-memory matrices are `nat`.
  Wrap-around is explicit where the code can reach it with a legal call.
* **libm.** `std::pow(2,k)` is exact. `floor(log2(n/(2t-1)))` is modelled by the exact integer function `Z.log2 (n/(2t-1))`
  everywhere; M_Log2 has the computation in binary64 over an arbitrary `log2`, and C02 proves it equal to the exact one for
  sides below 2^45 and any `log2` that is exact on powers of two and accurate to 2^-52 (relative).
* **Blaze** (dependency, trusted): DynamicMatrix/DynamicVector are rows, columns and row-major elements; CompressedMatrix is a list of
  (column, value) per row with `append`'s precondition checked; sparse matrix-vector product sums in column order.
  `blaze::Archive` byte format: see M_Archive.v; it was cross-checked against tests/fixtures/signal_1d_0cl_v2.bin.
* **fpzip** is a parameter of the theorems (its losslessness at full precision is a hypothesis of the theorem statement, met by
  a concrete instance). **streamvbyte** delta coding is modelled concretely.
* **libjpeg/CImg, user codecs, user denoisers, file system**: arbitrary functions/oracles quantified in the theorem.
* **Memory exhaustion** is modelled in Decompose and imports (M_Throw, M_ThrowImport), in the matrix cache (M_CacheFail) and where an Impl is allocated (M_Object), and nowhere else.

## 3. Properties and plan

| id | modelled as / proof |
|---|---|
| C01 | `new_buffer : params -> res buffer`; case analysis of guards |
| C02 | exact: `Z.log2` facts; floats (M_Log2): Flocq division error, bounds of ln near powers of two |
| C03 | integer arithmetic |
| C04 C05 | induction over channels and steps: the monadic model equals `Ok` of a pure function; invariant "side at step s is a multiple of 2^(steps-s) and >= 2t" |
| C06 C07 | pointwise characterisation of the assembled matrix |
| C08 C09 | analysis+synthesis = identity + defect convolution, as a linear functional over taps evaluated by reflection in Q; induction over steps in sup norm; periodised sparse matrix = filter; separable 2D |
| C10 | any arithmetic, zero iterations |
| C11 | induction over steps with pointwise linear dwt |
| C12 C32 C33 | Parseval for one step from orthonormality of taps; induction |
| C13 C56 | DB1 low-pass = block mean; induction |
| C14..C20 | list/frame reasoning on the buffer state; histories: induction over an op list |
| C21 C22 C26 C27 | byte-level archive; parser/printer induction; prefix argument |
| C23 C24 C25 C39 | CSR conversion as list filter; streamvbyte delta codec round trip |
| C28..C31 | pointwise; nth_element as any permutation satisfying its contract |
| C34 | sup bounds for DB1; counterexample for DB2 |
| C35 | list reasoning |
| C36 | lexicographic order |
| C37 C38 | cache as map, induction over histories, some of whose calls run out of memory (M_CacheFail); small-step interleaving semantics with two locks, invariant; the listed accesses of a step are proved to be all of them (S_Access) |
| C40 C41 C42 | index arithmetic of DaubechiesMat; same pure function |
| C43 | piecewise real algebra |
| C44 | Flocq binary32, computation over 256 values plus monotonicity for the clamp |
| C45..C48 | control-flow model with codec/file-system oracles |
| C49..C52 | integer model of the legacy compressor's bit layer (M_Sf): writer and reader as bit lists, bisection invariant, exponent code modulo 256 |
| C53 C54 | exact behaviour incl. refutation witnesses |
| C55 | model of blaze's relaxed comparison |
| C57 | error analysis for every `Arith R` with bounded rounding errors (S_Round): row-wise error against the matrix of magnitudes, Schur's bound on its norm, induction over levels; then the Flocq binary32 instance (M_Binary32) agrees with the rounded reals because the norms rule out overflow |
| C58 C59 C60 | serializer model: acceptance, scale factors, comparison |
| C61 C62 C64 | Flocq binary32/64 pixel conversions, value by value, and the JPEG quality guard |
| C63 | piecewise real algebra, as C43 |
| C65 C67 | the whole compressor (M_SfCodec): binary64 first pass in Flocq, widening and second pass as integer sums (Kraft equality), tables and time line as bit lists; the granularity of the shares against the overshoot of the first pass (P_SfSmall, P_SfWide) |
| C66 | the decoder's double arithmetic is exact (Flocq); rounding to the precision on the bit pattern |
| C70 | reader combinators for the blob (M_Legacy), memory size in binary64 (exact below 2^51 bytes), on top of C65 |
| C71 | binary32 subtraction (Sterbenz) and division, tolerance in binary64 |
| C72..C78 | the Python module (M_Python): numpy arrays as memory, strides and shape; index arithmetic, CPython slice rules; on top of C05, C10, C16 |
| C79 | rows of the matrix in the edge-continued case (M_ZeroDer), sums over the reals |
| C80 - C83 | Python energies, decode, images and their distance (M_Python2), from C33, C45 - C47, C32 |
| C84 C85 | the colour formulas in binary32 (M_ColorF); rounding-error analysis against the exact formula, then pictures by C45 |
| C86 C87 C88 | exact reals and any rounded arithmetic; per step the synthesis matrix is nearly orthogonal in both orders (P_PR, P_Dual), the levels are summed up as root of squares |
| C89 C90 | any rounded arithmetic and IEEE binary32: the error of every pass is pushed through the following levels (P_Acc); in binary32 every intermediate value is shown finite first (P_BinMove) |
| C91 | M_Mag32: M_Denoise on Flocq binary32; std::nth_element is any function meeting its contract on NaN-free keys (with a NaN its precondition is violated, so C91 says nothing then) |
| C92 | the dependency sets of every analysis and synthesis pass are computed on index functions and shown to be intervals modulo the side (P_Loc, P_Loc2); any arithmetic |
| C93 C94 | the signal is cut off outside the window (C92) and the norm bounds of C57, C86 are applied to what is left (P_Loc3-5); binary32 through the lemmas of C57 that show every intermediate value finite (P_Loc6) |
| C95 | C93 with B = 1 is below a level; M_Image import/export with any number of steps (P_Loc7) |
| C96 | buffers of floats are serialized by their bit patterns (S_Lossy: Flocq bits), C24 gives what is read back, a codec is described by what it does to numbers, C86 and C87 (binary32) bound the effect; clear_low is the codec that keeps upper bits |
| C97 | maximum norm of one pass from the row sums of the filter matrices and the rounding analysis of C57, induction over passes (P_Peak); binary32 through C57's finiteness lemmas (P_Peak2) |
| C98 | C97 bounds what the codec loses of a coefficient, C94 what that does to a sample (P_Peak2); numbers for DB1 (P_Peak3) |
| C99 | the reference is a buffer for the padded signal with k steps in exact arithmetic (S_Preview); C57's rounding analysis at level k plus the accuracy of the approximations (P_Preview), binary32 with any division by the factor (P_Preview2), the model's division and numbers (P_Preview3) |
| C100 | S_Damage gives the layout in bytes (offsets, numbers, tags); readers on arbitrary bytes never are undefined unless the oversized pattern occurs (P_Damage), a flat view of the nested reads turns one refused subband into a refused blob, and damage to a value is the blob of another buffer |
| C101 C102 | strings character by character (M_Print); a number ends at the first character that is no digit, so the text can be split again; numerals are specified by their value (S_Print); Blaze's printers are parameters |
| C103 C104 | Distance and EnergyDistribution in binary32/binary64 (M_MetricsF); Blaze's reductions are any tree of rounded additions in any order (`adds`, S_MetricsF), std::pow(x, 2) is any function good to 2^-52; relative errors (1+u)^k compose along the computation; products and sums are not contracted to fused operations |
| C105 | the composition of C91 (threshold), C96 (lossy storage) and C92 (local error of compose); the float codec is an oracle with relative loss d and absolute loss e; the README numbers follow by evaluating the bound for 3 steps of DB1 |
| C106 | M_Python py_decomposition_size and py_construct against the subbands of a reachable buffer (invariant of C04) |
| C107 | the sample-by-sample error of C93 on hues, saturations and luminances, then the binary32 HSLToRGB on values a little outside the unit range (P_HslWave: errors against the exact formula; P_HslWave2: its Lipschitz constant; grey colours apart) |
| C108 | M_View view_decompositions, M_View2 one channel read and stored; frame lemmas on lists and the closed form of compose (C17) |
| C109 | M_Wavelet filters against S_Daub (Daubechies' conditions); the exact filters exist by Newton-Kantorovich (P_Kant) around the printed decimals, with integer approximate inverses of the Jacobians checked by computation (P_DaubC, P_Daub) |
| C110 | M_Buffer decompose; each low-pass level maps polynomials to polynomials of the same degree, the exact high-pass filter kills them (P_Poly, P_Smooth), C109 bounds the difference; floats by C111 |
| C111 | M_Buffer decompose; joint induction over passes on magnitude and error of a coefficient (P_Near, P_Near2) |
| C112 | M_Buffer new_buffer, compose; the loops run on empty matrices (P_Fresh) |
| C113 | M_Image, M_Serializer, M_Binary32 composed; C105's bound carried to 8-bit levels (P_Photo) |
| C114 | C92's locality argument stopped at level k, against the exact decomposition of C99; composed with C105's storage and the JPEG codecs (P_LocPrev, P_LocPrev2, P_LocPrev3) |
| C115 | a heap of Impl cells, objects as nullable owning pointers, views as object numbers, references as cells; refinement to a world of plain values by an ownership invariant over all histories (M_Object, S_Object, P_Object, P_Object2) |
| C116 | on the value world of C115: an invariant (whole buffers, live references inside their channels) kept by proper calls, each of which is defined (S_Object2, P_Object3) |
| C117 | induction over the levels with C21 and C24; the nested roundings are a hypothesis on fpzip, met by a codec that clears low bits (S_Gen, P_Gen) |
| C118 | a machine (M_Store) of a disk and the images of a process, calls as transitions, a kill inside a call leaves any prefix of the new contents; induction over the history that every image is reachable and every archive file a prefix of the blob of the last image saved there (S_Store, P_Store); C21, C27 then say what Load does |
| C119 | the calls of M_Buffer and M_View as programs that read and write subbands one at a time (M_Share), threads interleaved at every access; the sequential calls are the specification (S_Share); invariant over schedules: finishing the threads in order from the current state gives the same result, because an access commutes with whole programs whose footprint it is outside of (P_Share, P_Share3); the programs refine the calls (P_Share2); channels shared out by views (P_Share4) |
| C120 | sizes stated from the values of the subbands alone (S_Size: places of non-zero values, distances between them, bytes of a distance); the archive layout of M_Serializer and the byte widths of its streamvbyte encoder counted by induction (P_Size); sparser buffers by induction over sublists; denoisers by C28-C30 and C91 (P_Size2). fpzip is an oracle: its length is in the statement, monotonicity and the buffer bound are hypotheses where used |
| C121 | serialize (int to uint8_t), parse and comparison of the Python module (M_Python3); the items of the array through C72/C74 (P_Python), C105 and the serializer round trips C22, C24 (P_Pyflow) |
| C122 | exact dwt2/idwt2 as sums over rows and columns that commute (P_Trans); by induction over the steps and the crops and paddings of both sides |
| C123 C124 | maps of index and sign that commute with analysis and synthesis, lifted through the steps once for all such maps (P_Ring), instances: rotation by 2^steps, mirror for DB1 (P_Ring2); 1D rotation in any arithmetic: the same sums in the same order (P_Ring3) |
| C125 | readers of M_Archive and M_Serializer characterised by the strings they take, in both directions (P_Canon); the strings themselves are described byte by byte in S_Canon |
| C126 | linearity of the transform and its energy bounds from both sides applied to the difference of the signals; single precision by the triangle inequality through the exact coefficients (C89) and the accuracy of Distance (C104) |
| C127 | keeping the largest values minimises squared error plus a price per kept value, termwise; lifted to signals by the isometry of C88 (P_Best); idempotence follows from optimality |
| C128 | one step uses the entries of the sparse matrices only (P_Loc); spans of several steps composed by induction, down for analysis and up for synthesis (P_Cover), with padding, cropping and denoisers in P_Cover2 |
| C129 | induction over the cycles with the bound of C93 for each, whose hypothesis is kept by the drift so far (P_Cycle); for levels, C95 for each |
| C130 | a second model of Decompose that keeps the buffer when an exception leaves it, from the denoiser or for lack of memory (M_Throw); the writes of a channel as a list prefix, induction over steps and channels; agreement with M_Buffer for denoisers that do not throw (P_Throw, P_Throw2) |
| C68 C69 | control flow, refutations by computation |

Parts of the code not modelled are listed in section 5 (kept current).

## 4. Trusted base

Coq 8.16.1 kernel (and `vm_compute`); the axioms printed by `Print Assumptions` under each theorem (standard library Reals:
`ClassicalDedekindReals.sig_forall_dec`, `ClassicalDedekindReals.sig_not_dec`,
`FunctionalExtensionality.functional_extensionality_dep`, and `Classical_Prop.classic` where Flocq is used). No axioms of our own.

## 5. Modelled and not modelled

Modelled, function by function (each definition cites its lines):

| source | model | simplifications |
|---|---|---|
| wavelet_parameters.h | M_Params, M_Archive, M_Print | Blaze's printing of vectors and matrices is a parameter; C locale |
| wavelet_utils.cc | M_Params (sizes), M_Buffer (transforms), M_Throw (transforms that an exception leaves), M_Cache, M_CacheFail, M_Metrics, M_MetricsF, M_Log2 | OpenMP/SIMD inside Blaze is trusted; the two mutexes of the cache are modelled in M_Cache |
| DataType = float in the transform | M_Binary32 | no contraction or reordering by the compiler (C57_any_rounding covers contraction); `std::pow` in the final scaling by repeated multiplication |
| wavelet.cc | M_Wavelet, M_ZeroDer | filter taps are the decimal literals of the source, as rationals, rounded by the arithmetic instance |
| padding.cc | M_Padding | |
| wavelet_buffer.cc | M_Buffer, M_Equal, M_Serializer, M_Legacy, M_Object, M_Throw | pimpl indirection removed: a buffer is its value (justified by C115, where M_Object has the pointers) |
| wavelet_buffer_view.cc | M_View, M_Throw | |
| denoise_algorithms.h | M_Denoise (any type), M_Mag32 (float); user-defined denoisers: any function (M_Buffer), any function that may throw (M_Throw) | nth_element is any permutation satisfying its contract |
| wavelet_buffer_serializer.cc, matrix_compressor.cc | M_Serializer, M_Legacy | fpzip is a parameter; Blaze archive bytes in M_Archive |
| sf_compressor.cc | M_Sf, M_SfCodec, M_SfEqual | first pass in Flocq binary64; FreeCodes counted exactly in units of 2^-32; the debug-only code is left out |
| jpeg_codecs.cc, wavelet_image.cc | M_Image, M_Float, M_Store, M_ThrowImport | libjpeg and CImg are oracles |
| python/src (blaze_utils.cc, wavelet_buffer.cc, wavelet_buffer_view.cc, img/codecs.cc, img/wavelet_image.cc, wavelet_parameters.cc) | M_Python, M_Python2, M_Python3, M_Print | numpy and pybind11 are trusted: an array is memory, offset, shape, strides; `py::cast` of a buffer Python holds is that object; alignment and int overflow of indexes left out |
| color_space.cc | M_Image (loops), M_Color (formulas over exact reals), M_ColorF (formulas in binary32, operation by operation) | |

Not modelled: memory exhaustion, except in Decompose and imports (M_Throw, M_ThrowImport, which takes from Blaze that an assignment allocates before it changes its target), in the matrix cache (M_CacheFail) and where an Impl is allocated (M_Object); the CMake/conan/Python packaging; the Blaze, fpzip, streamvbyte
(beyond its delta format), libjpeg and CImg libraries themselves; exceptions thrown by streams that the caller configured to throw;
data races other than those on the matrix cache (M_Cache) and on subbands of shared buffers (M_Share; one access to a subband is one step, and the weak memory model is not modelled: the theorem is that there is no race, which is what C++ asks for to have interleaving semantics); examples and benchmarks.

`coqchk` is run by the gate; the library axioms it lists come from the standard library's Reals and from Flocq's and Coq's use of
classical logic, no module under theories/ declares one.
