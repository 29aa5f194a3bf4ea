{"id": "C01", "title": "Constructor accepts exactly the legal parameters", "statement": "WaveletBuffer(parameters) throws exactly when the shape is not 1- or 2-dimensional, or the shortest side is smaller than 2*type, or more decomposition steps are requested than the signal allows; otherwise it yields a buffer with the requested parameters, signal_number channels, steps*(1 or 3)+1 subbands per channel, and every subband empty.", "quantifier": "all parameter values (any shape vector, any 64-bit sizes, any wavelet type, any number of steps)", "why_tests_cant": "the parameter space is unbounded and the boundary is a floor(log2(.)) of a quotient", "anchors": ["sources/wavelet_buffer.cc:Impl::Impl", "sources/wavelet_utils.cc:CalculateMaxDecompositionSteps", "sources/wavelet_utils.cc:DecompositionSize"]}
{"id": "C02", "title": "Maximum step count is the exact largest legal one", "statement": "The largest number of steps the constructor accepts for shortest side n and wavelet DBt is the greatest k with 2^k*(2t-1) <= n.", "quantifier": "all n >= 2t below 2^45, all wavelet types, any log2 that is exact on powers of two and accurate to 2^-52 relative elsewhere (sides of 2^50-1 are a counterexample without the bound)", "why_tests_cant": "floating point log2/floor at every size near a multiple of a power of two", "anchors": ["sources/wavelet_utils.cc:CalculateMaxDecompositionSteps"]}
{"id": "C03", "title": "Padded size is the least sufficient multiple", "statement": "The padded length of every side is the least multiple of 2^steps that is >= the signal side (and less than side + 2^steps).", "quantifier": "all shapes and step counts", "why_tests_cant": "arithmetic fact over all integers", "anchors": ["sources/wavelet_utils.cc:CalcPaddedSize"]}
{"id": "C04", "title": "Subband layout after Decompose", "statement": "After a successful Decompose each decomposed channel has steps*(1|3)+1 subbands, the detail subbands of step s have padded_side/2^(s+1) in each side and the last subband (approximation) has padded_side/2^steps.", "quantifier": "all accepted parameters, all well-shaped signals, all shape-preserving denoisers", "why_tests_cant": "unbounded number of shapes and steps", "anchors": ["sources/wavelet_utils.cc:DecomposeImpl", "sources/wavelet_utils.cc:CalculateOneSideStep1D", "sources/wavelet_utils.cc:CalculateOneSideStep2D"]}
{"id": "C05", "title": "Decompose and Compose are memory safe on accepted parameters", "statement": "For every accepted parameter set with a known wavelet and every well-shaped signal, Decompose performs no out-of-range element access, violates no matrix-size precondition and returns true; the same holds for Compose with 0 <= scale_factor <= steps on the result.", "quantifier": "all shapes, steps, wavelet types, channels, signals", "why_tests_cant": "out-of-range accesses depend on size/filter-length boundaries that tests sample sparsely", "anchors": ["sources/wavelet.cc:dwt", "sources/wavelet.cc:idwt", "sources/wavelet.cc:DaubechiesMat", "sources/wavelet_utils.cc:DecomposeImpl", "sources/wavelet_utils.cc:ComposeImpl"]}
{"id": "C06", "title": "Padding replicates the edge", "statement": "ZeroDerivativePaddingAlgorithm::Extend yields at (r,c) the source sample nearest to (r-top,c-left), with top/left = 0 (kRight) or floor(delta/2) (kBoth); ZeroPaddingAlgorithm::Extend yields the source sample there or 0 outside.", "quantifier": "all source sizes, target sizes, contents, both locations", "why_tests_cant": "all geometry combinations including corners", "anchors": ["sources/padding.cc:Extend"]}
{"id": "C07", "title": "Crop undoes Extend", "statement": "For both padding algorithms and both locations, cropping an extended matrix to the source size returns the source exactly.", "quantifier": "all source and target sizes, contents", "why_tests_cant": "universal over sizes, odd/even deltas", "anchors": ["sources/padding.cc:Crop", "sources/padding.cc:Extend"]}
{"id": "C08", "title": "Perfect reconstruction (DB1)", "statement": "With exact arithmetic, for DB1 and no denoising Compose(scale 0) after Decompose returns exactly the input signal for 1D and 2D, any number of channels.", "quantifier": "all signals, sizes (odd, non-power-of-two), steps, channel counts", "why_tests_cant": "needs induction over steps and all sizes", "anchors": ["sources/wavelet_utils.cc:DecomposeImpl", "sources/wavelet_utils.cc:ComposeImpl", "sources/wavelet.cc:dwt", "sources/wavelet.cc:idwt", "sources/wavelet.cc:dwt2", "sources/wavelet.cc:idwt2"]}
{"id": "C09", "title": "Reconstruction error of DB2-DB5 is bounded by the printed coefficients' defect", "statement": "With exact arithmetic and the decimal filter coefficients in the source, Compose(Decompose(x)) differs from x by at most an explicit tiny relative bound in every sample, for every step count.", "quantifier": "all signals, sizes, steps, DB2..DB5 (and DB1 with bound 0)", "why_tests_cant": "needs an inductive error analysis; tests only sample signals", "anchors": ["sources/wavelet.cc:dbwavf", "sources/wavelet.cc:Orthfilt", "sources/wavelet_utils.cc:ComposeImpl"]}
{"id": "C10", "title": "kNone and zero steps are bit-exact pass-through", "statement": "With wavelet type kNone, or zero steps, Decompose stores the signal unchanged in the only subband and Compose returns it bit for bit whatever the arithmetic, including NaNs and infinities.", "quantifier": "all signals and shapes, all value representations", "why_tests_cant": "all inputs", "anchors": ["sources/wavelet_utils.cc:CalcPaddedSize", "sources/wavelet_utils.cc:DecomposeImpl"]}
{"id": "C11", "title": "Decomposition is linear", "statement": "With exact arithmetic and no denoising, decomposing a*x+b*y gives a times the subbands of x plus b times those of y.", "quantifier": "all signals, scalars, parameters", "why_tests_cant": "universally quantified algebraic law", "anchors": ["sources/wavelet_utils.cc:DecomposeImpl", "sources/wavelet.cc:dwt", "sources/wavelet.cc:dwt2s"]}
{"id": "C12", "title": "Energy preservation (DB1)", "statement": "With exact arithmetic for DB1, the sum of squares of all subband values of a channel equals the sum of squares of the padded channel (and of the signal itself if no padding is needed).", "quantifier": "all signals, shapes, steps", "why_tests_cant": "Parseval identity over all inputs", "anchors": ["sources/wavelet.cc:dwt", "sources/wavelet.cc:dwt2s", "sources/wavelet_utils.cc:EnergyDistribution"]}
{"id": "C13", "title": "Scaled composition has the documented size and amplitude", "statement": "For 0 <= k <= steps, Compose with scale factor k returns a signal of side floor(n/2^k); with DB1 and exact arithmetic each 1D sample is the mean of the corresponding block of 2^k padded samples, so constant signals keep their amplitude.", "quantifier": "all signals, shapes, steps, k<=steps", "why_tests_cant": "all k and sizes incl. odd sizes", "anchors": ["sources/wavelet_utils.cc:ComposeImpl"]}
{"id": "C14", "title": "Channels are independent", "statement": "The subbands of a channel after Decompose depend only on that channel's signal; decomposing several channels together equals decomposing each alone.", "quantifier": "all channel counts, signals", "why_tests_cant": "non-interference over all inputs", "anchors": ["sources/wavelet_utils.cc:DecomposeImpl"]}
{"id": "C15", "title": "Rejected Decompose leaves the buffer unchanged", "statement": "Whenever Decompose (whole buffer or view) returns false, every subband of the buffer is as before.", "quantifier": "all buffers, all inputs for which the call returns false", "why_tests_cant": "all failing inputs and prior states", "anchors": ["sources/wavelet_utils.cc:DecomposeImpl", "sources/wavelet_buffer_view.cc:Impl::Decompose"]}
{"id": "C16", "title": "Views write only their own channels", "statement": "A view over channels [start, start+count) never changes any other channel's subbands nor the parameters; within the range it writes what a stand-alone buffer decomposing the same data would hold.", "quantifier": "all buffers, ranges, data", "why_tests_cant": "frame property for all states", "anchors": ["sources/wavelet_buffer_view.cc:Impl::Decompose", "sources/wavelet_utils.cc:DecomposeImpl"]}
{"id": "C17", "title": "Compose through a view equals the slice of the whole composition", "statement": "Composing through a view returns exactly the corresponding channels of composing the whole buffer, for each scale factor.", "quantifier": "all buffers, ranges, scale factors", "why_tests_cant": "all states", "anchors": ["sources/wavelet_buffer_view.cc:Impl::Compose"]}
{"id": "C18", "title": "Casting a view copies exactly its channels", "statement": "Converting a view to a WaveletBuffer yields a buffer with the same parameters except signal_number=count whose channel i is channel start+i of the source; composing it equals composing the view.", "quantifier": "all buffers and in-range views", "why_tests_cant": "all states", "anchors": ["sources/wavelet_buffer_view.cc:Impl::CastToBuffer"]}
{"id": "C19", "title": "Out-of-range views are refused without effect", "statement": "Decompose/Compose through a view whose start+count exceeds the number of channels returns false and changes neither the buffer nor (for Compose) the output; but the cast of such a view and negative starts are not checked and are undefined behaviour.", "quantifier": "all ints start,count (no int overflow), all buffers", "why_tests_cant": "int/size_t conversions at boundaries", "anchors": ["sources/wavelet_buffer_view.cc:CheckChannelRange", "sources/wavelet_buffer_view.cc:CastToBuffer"]}
{"id": "C20", "title": "API histories preserve the buffer invariant", "statement": "After any finite sequence of Decompose, view Decompose, copy and assignment calls the parameters are unchanged, the number of channels and of subbands per channel stay as constructed, and each channel is either wholly empty or has exactly the layout of C04.", "quantifier": "all finite histories of API calls", "why_tests_cant": "unbounded histories", "anchors": ["sources/wavelet_buffer.cc:Impl", "sources/wavelet_buffer_view.cc:Impl"]}
{"id": "C21", "title": "Uncompressed Serialize/Parse round trip is bit exact", "statement": "Parse(Serialize(b, 0)) yields a buffer with the same parameters and bit-identical subbands (NaN payloads, infinities and -0 included), and trailing bytes after the blob are ignored.", "quantifier": "all buffers whose sizes fit their 64-bit fields, all contents", "why_tests_cant": "all contents/bit patterns", "anchors": ["sources/wavelet_buffer_serializer.cc:WaveletBufferSerializer::Serialize", "sources/wavelet_buffer_serializer.cc:WaveletBufferSerializer::Parse", "wavelet_buffer/wavelet_parameters.h:serialize"]}
{"id": "C22", "title": "Serialization is injective", "statement": "Two buffers with equal uncompressed blobs have equal parameters and bit-identical subbands.", "quantifier": "all pairs of buffers", "why_tests_cant": "all pairs", "anchors": ["sources/wavelet_buffer_serializer.cc:Serialize"]}
{"id": "C23", "title": "Lossless compressed round trip (sf_compression = 1)", "statement": "With sf_compression=1 (full precision) and codecs for integers/floats that are lossless, Parse(Serialize(b,1)) returns bit-identical subbands except that -0 becomes +0, for every buffer with no empty subband and fewer than 2^32 elements per subband.", "quantifier": "all such buffers, any lossless fpzip, the concrete streamvbyte format", "why_tests_cant": "all contents", "anchors": ["sources/wavelet_buffer_serializer.cc:Serialize", "sources/internal/matrix_compressor.cc:Compress", "sources/internal/matrix_compressor.cc:Decompress"]}
{"id": "C24", "title": "Compressed round trip keeps shapes and sparsity", "statement": "For any sf_compression in 1..31, the parsed subbands have the same shape, zero where the originals were zero and elsewhere the value codec's image of the original.", "quantifier": "all buffers without empty subbands, all sf values, any value codec that preserves length", "why_tests_cant": "all contents", "anchors": ["sources/wavelet_buffer_serializer.cc:Serialize", "sources/internal/matrix_compressor.cc:ConvertToCSR", "sources/internal/matrix_compressor.cc:ConvertFromCSR"]}
{"id": "C25", "title": "When Serialize with compression succeeds", "statement": "Serialize(blob, sf>0) returns true on a reachable buffer exactly if all channels are decomposed or none is; it is not true that it always succeeds: a buffer in which one channel is decomposed and another is still empty is refused (returns false).", "quantifier": "all reachable buffers", "why_tests_cant": "a combination of states a test suite does not reach", "anchors": ["sources/wavelet_buffer_serializer.cc:Serialize", "sources/internal/matrix_compressor.cc:ConvertToCSR"]}
{"id": "C26", "title": "Only versions 2 and 3 are parsed", "statement": "Parse returns null for every non-empty blob whose first non-blank byte is neither 2 nor 3, and blobs written by Serialize are recognised as version 3; legacy version 2 uncompressed blobs of a buffer are parsed to that buffer.", "quantifier": "all byte strings", "why_tests_cant": "all byte strings", "anchors": ["sources/wavelet_buffer.cc:Impl::Parse", "sources/wavelet_buffer_serializer.cc:WaveletBufferSerializerLegacy::Parse"]}
{"id": "C27", "title": "Truncated blobs never yield a buffer", "statement": "Parsing any proper prefix of a blob (compressed or not) that contains at least the whole header returns null (never a partially filled buffer, no out-of-range access); a cut inside the header makes the program use uninitialised values.", "quantifier": "all buffers, all sf values, all cut points", "why_tests_cant": "every cut point of every blob", "anchors": ["sources/wavelet_buffer_serializer.cc:WaveletBufferSerializer::Parse", "wavelet_buffer/wavelet_parameters.h:deserialize"]}
{"id": "C28", "title": "Threshold denoiser semantics", "statement": "ThresholdAbsDenoiseAlgorithm keeps exactly the values with |x| > a*step+b, zeroes all others, keeps the shape, and is idempotent when the threshold is non-negative.", "quantifier": "all data, thresholds, steps", "why_tests_cant": "all inputs", "anchors": ["wavelet_buffer/denoise_algorithms.h:ThresholdAbsDenoiseAlgorithm"]}
{"id": "C29", "title": "Simple denoiser keeps the largest values", "statement": "SimpleDenoiseAlgorithm(level) keeps exactly n - min(trunc(n*level), n-1) values of a non-empty subband, every kept value is at least as large in magnitude as every dropped one, and level 0 is the identity.", "quantifier": "all data, levels in [0,1], any outcome of nth_element its contract allows", "why_tests_cant": "nth_element is nondeterministic on ties; all inputs", "anchors": ["wavelet_buffer/denoise_algorithms.h:SimpleDenoiseAlgorithm"]}
{"id": "C30", "title": "What compression level 1 leaves", "statement": "The documentation says compression level 1 makes all values zero. It does not: one largest value survives.", "quantifier": "all data", "why_tests_cant": "documentation claim about all data", "anchors": ["wavelet_buffer/denoise_algorithms.h:SimpleDenoiseAlgorithm"]}
{"id": "C31", "title": "Denoisers never touch the approximation", "statement": "For any denoiser, the approximation subband after Decompose equals the one obtained without denoising, and each detail subband is the denoiser applied to the undenoised one with that step number.", "quantifier": "all denoisers (any function), signals, parameters", "why_tests_cant": "quantifies over arbitrary denoisers", "anchors": ["sources/wavelet_utils.cc:CalculateOneSideStep1D", "sources/wavelet_utils.cc:CalculateOneSideStep2D"]}
{"id": "C32", "title": "Distance is a metric on equal-parameter buffers", "statement": "Distance(b,b)=0, Distance is symmetric, non-negative, and 0 only for equal subbands; it is NaN if the step counts differ; for DB1 without padding it is the mean squared difference of the signals.", "quantifier": "all buffers (exact arithmetic)", "why_tests_cant": "all pairs of buffers", "anchors": ["sources/wavelet_utils.cc:Distance"]}
{"id": "C33", "title": "EnergyDistribution reports subband energies", "statement": "EnergyDistribution has one vector per channel with one entry per subband, each the sum of squares of that subband; entries are non-negative and (DB1) add up to the energy of the padded signal; it is empty exactly for an empty buffer.", "quantifier": "all buffers", "why_tests_cant": "all inputs", "anchors": ["sources/wavelet_utils.cc:EnergyDistribution"]}
{"id": "C34", "title": "GetValueRange bounds subband values (DB1)", "statement": "If all samples lie in [0,M], each value of subband i lies between M*first and M*second of GetValueRange(i) for DB1; the claim fails for DB2 and the reported range is infinite for zero steps.", "quantifier": "all signals in [0,M], all shapes and steps", "why_tests_cant": "all inputs", "anchors": ["sources/wavelet_buffer.cc:GetValueRange"]}
{"id": "C35", "title": "IsEmpty tracks decomposition", "statement": "A fresh buffer is empty; after a successful whole-buffer Decompose of a signal with at least one sample it is not; IsEmpty holds iff every subband of every channel has no element.", "quantifier": "all buffers", "why_tests_cant": "all states", "anchors": ["sources/wavelet_buffer.cc:IsEmpty"]}
{"id": "C36", "title": "Parameter order is a strict total order consistent with equality", "statement": "operator< on WaveletParameters is irreflexive, transitive, total, and neither a<b nor b<a iff a==b, so the matrix cache never confuses two parameter sets.", "quantifier": "all parameter values", "why_tests_cant": "all pairs/triples", "anchors": ["wavelet_buffer/wavelet_parameters.h:operator<", "wavelet_buffer/wavelet_parameters.h:operator=="]}
{"id": "C37", "title": "The matrix cache is transparent, also after calls that ran out of memory", "statement": "Whatever calls were made before, and whatever parameters they used, the matrices used by a Decompose/Compose are those freshly generated for its parameters, also when earlier calls were ended by lack of memory, inside the cache or after it.", "quantifier": "all call histories", "why_tests_cant": "unbounded histories of a process-global cache", "anchors": ["sources/wavelet_utils.cc:WaveletMatrixCache"]}
{"id": "C38", "title": "Concurrent use of the cache is safe", "statement": "For any number of threads and any interleaving of calls that generate (transposed) matrices, no deadlock occurs, and every call obtains the freshly generated matrices; references handed out stay valid.", "quantifier": "all thread counts and schedules", "why_tests_cant": "all schedules", "anchors": ["sources/wavelet_utils.cc:WaveletMatrixCache::GenerateMatrices", "sources/wavelet_utils.cc:WaveletMatrixCache::GenerateTransMatrices"]}
{"id": "C39", "title": "CSR conversion round trip", "statement": "ConvertFromCSR(ConvertToCSR(m)) = m (up to the sign of zero) for every non-empty matrix of at most 2^32 elements; indexes are strictly increasing; beyond 2^32 elements indexes collide.", "quantifier": "all matrices", "why_tests_cant": "32-bit overflow boundary", "anchors": ["sources/internal/matrix_compressor.cc:ConvertToCSR", "sources/internal/matrix_compressor.cc:ConvertFromCSR"]}
{"id": "C40", "title": "Incremental decomposition equals full decomposition", "statement": "Decomposing with k steps and then continuing with m more steps (partial DecomposeImpl) gives the subbands of decomposing with k+m steps directly, when the padded sizes agree.", "quantifier": "all signals, k, m, exact arithmetic", "why_tests_cant": "all step splits", "anchors": ["sources/wavelet_utils.cc:DecomposeImpl"]}
{"id": "C41", "title": "The two dwt paths agree", "statement": "With exact arithmetic, wavelet::dwt with the 2-row filter matrix equals dwt with the full DaubechiesMat, and idwt with the 2-row synthesis filters equals idwt with its transpose.", "quantifier": "all even sizes >= order, all DB types, all signals", "why_tests_cant": "wrap-around at all sizes", "anchors": ["sources/wavelet.cc:dwt", "sources/wavelet.cc:idwt", "sources/wavelet.cc:DaubechiesMat"]}
{"id": "C42", "title": "DaubechiesMat rows are well formed", "statement": "DaubechiesMat(size, order) appends its non-zero entries in strictly increasing column order within each row (the precondition of CompressedMatrix::append), each column index < size, and row i holds tap k at column (2i+k) mod size.", "quantifier": "all even sizes >= order, all orders", "why_tests_cant": "index wrap arithmetic", "anchors": ["sources/wavelet.cc:DaubechiesMat"]}
{"id": "C43", "title": "RGB/HSL conversion round trip", "statement": "With exact arithmetic HSLToRGB(RGBToHSL(r,g,b)) is within 0.001 of (r,g,b) in each component for colours in [0,1]^3, and H,S,L stay in [0,1]; the round trip is exact unless the colour is almost grey or a second component is within 0.0001 of the largest.", "quantifier": "all colours in the unit cube", "why_tests_cant": "piecewise function over a continuum", "anchors": ["sources/img/color_space.cc:RGBToHSL", "sources/img/color_space.cc:HSLToRGB"]}
{"id": "C44", "title": "Pixel round trip", "statement": "In the program's float arithmetic every 8-bit pixel value survives decoding and encoding exactly; ToPixel maps every float (NaN and infinities included) into 0..255, keeps the order, and quantises samples of [0,1] to the step below.", "quantifier": "all 256 pixel values and all floats", "why_tests_cant": "float rounding", "anchors": ["sources/img/jpeg_codecs.cc:ToPixel", "sources/img/jpeg_codecs.cc:Decode"]}
{"id": "C45", "title": "Codecs refuse ill-shaped images", "statement": "Encode returns false exactly when the requested channels are missing, differ in size or are empty; otherwise the picture it hands to the JPEG library shows exactly these channels. Decode returns false and changes nothing when the library cannot load the data; otherwise it stores the planes in the requested channels and leaves the other channels alone. Decoding a picture with fewer than three planes with a colour codec reads out of bounds (refutes 'every picture is decoded or refused').", "quantifier": "all images, start channels, blobs, any JPEG library behaviour", "why_tests_cant": "all images", "anchors": ["sources/img/jpeg_codecs.cc:checkChannelsShape", "sources/img/jpeg_codecs.cc:Encode", "sources/img/jpeg_codecs.cc:Decode"]}
{"id": "C46", "title": "WaveletImage status codes are faithful and failed imports have no effect", "statement": "Import returns kWrongData iff the codec refuses the data, kDecompositionError iff the buffer refuses the image, kIOError iff the file cannot be opened, else kOk; whenever it is not kOk the buffer is unchanged. Export likewise with kCompositionError and kWrongData. A picture that fits is stored as by a stand-alone buffer. Start channels of 2^32 and more wrap around (refutes 'a start channel out of range is refused').", "quantifier": "all images, buffers, codecs (any function), denoisers", "why_tests_cant": "all codecs and states", "anchors": ["sources/img/wavelet_image.cc:ImportFromString", "sources/img/wavelet_image.cc:ExportToString"]}
{"id": "C47", "title": "Save then Load restores the image", "statement": "If Save returns kOk and the file system stored the data, Load of that file gives a WaveletImage with a bit-identical buffer.", "quantifier": "all buffers and paths", "why_tests_cant": "all buffers", "anchors": ["sources/img/wavelet_image.cc:Save", "sources/img/wavelet_image.cc:Load"]}
{"id": "C48", "title": "What Save and ExportToFile leave behind when something fails", "statement": "kIOError is returned exactly when the file could not be opened, and then the old file is intact. A write that stops early is reported as kOk (refutes 'failed writes are reported'), and what it leaves is never loaded as a buffer. An export that is refused leaves an empty file in place of the old one (refutes 'the old file is kept on failure').", "quantifier": "all file-system states and failure points", "why_tests_cant": "crash/failure points", "anchors": ["sources/img/wavelet_image.cc:Save", "sources/img/wavelet_image.cc:ExportToFile"]}
{"id": "C49", "title": "Legacy integer code round trip (NineOfSeven inverts SevenOfNine)", "statement": "Reading back a value written with the truncated-binary code returns the value and consumes exactly its bits.", "quantifier": "all n <= 2^31 possibilities, all values < n, all following bits", "why_tests_cant": "2^62 cases", "anchors": ["sources/internal/sf_compressor.cc:SevenOfNine", "sources/internal/sf_compressor.cc:NineOfSeven"]}
{"id": "C50", "title": "Legacy bit stream round trip", "statement": "Any sequence of (bits,value) pairs written by Bitstream is read back by FromBitstream in order, independent of byte alignment.", "quantifier": "all sequences of codes of at most 31 bits", "why_tests_cant": "unbounded sequences, all alignments", "anchors": ["sources/internal/sf_compressor.cc:Bitstream", "sources/internal/sf_compressor.cc:FromBitstream"]}
{"id": "C51", "title": "Legacy pool search is a correct bisection", "statement": "findPoolNr returns the first pool whose upper border is >= the value (the last pool if none) for every table with increasing borders.", "quantifier": "all tables of 1..64 increasing borders, all values", "why_tests_cant": "all tables", "anchors": ["sources/internal/sf_compressor.cc:setPoolSearch", "sources/internal/sf_compressor.cc:findPoolNr"]}
{"id": "C52", "title": "Legacy exponent coding is a bijection", "statement": "The exponent jump code written by Compress is decoded by Decompress to the same exponent, for every previous and next exponent.", "quantifier": "all pairs of 8-bit exponents, hence all exponent sequences", "why_tests_cant": "65536 pairs chained over unbounded sequences", "anchors": ["sources/internal/sf_compressor.cc:Compress", "sources/internal/sf_compressor.cc:Decompress"]}
{"id": "C53", "title": "Which data Decompose takes", "statement": "Decompose on a 2D buffer returns true exactly when the number of channels and the shape of the first channel are the declared ones, on a 1D buffer exactly when the first signal has the declared length; otherwise it returns false and changes nothing. Later channels are not checked: an image with a wrong later channel can be taken. A 1D buffer ignores signals beyond the declared number, and with fewer it always reads out of range.", "quantifier": "all buffers, data, denoisers", "why_tests_cant": "all shapes and counts, needs a bad later channel", "anchors": ["sources/wavelet_utils.cc:DecomposeImpl"]}
{"id": "C54", "title": "Scale factors beyond the steps are not refused", "statement": "Compose with scale_factor k > steps returns true and delivers the middle part of side floor(n/2^k) of the deepest approximation (all of it if that side is 0), divided by the factor for k: a constant DB1 signal comes back too small by sqrt(2)^(k-steps) (1D) or 2^(k-steps) (2D). So neither a refusal nor the documented size and amplitude can be relied on.", "quantifier": "all accepted parameters, buffers, scale factors beyond the steps", "why_tests_cant": "out-of-contract arguments", "anchors": ["sources/wavelet_utils.cc:ComposeImpl"]}
{"id": "C55", "title": "Comparing buffers", "statement": "a == b exactly when the parameters, the numbers of channels and subbands, the shapes of the subbands and all corresponding values are equal; a buffer equals itself exactly when every stored value equals itself (so not with a NaN); == is symmetric if the comparison of values is; a != b is the negation of b == a; a parsed copy equals the serialized buffer.", "quantifier": "all pairs of buffers, any comparison of values", "why_tests_cant": "all contents", "anchors": ["sources/wavelet_buffer.cc:operator=="]}
{"id": "C56", "title": "Constant signals have zero detail (DB1) and their amplitude survives", "statement": "With exact arithmetic a constant signal has all DB1 detail values 0 and approximation c*2^(steps/2) in 1D or c*2^steps in 2D.", "quantifier": "all constants, shapes, steps", "why_tests_cant": "all shapes", "anchors": ["sources/wavelet.cc:dwt", "sources/wavelet.cc:dwt2"]}
{"id": "C57", "title": "Float32 decomposition and composition: no overflow, explicit error bound", "statement": "In IEEE binary32 arithmetic (round to nearest, the operation order and literals of the source), for finite signals whose padded norm is at most 2^110 (in particular samples up to 2^46 in magnitude), Decompose then Compose(0) succeeds, every stored coefficient and every returned sample is finite, and the result differs from the signal in Euclidean norm, hence per sample, by at most 7.5e-6 per step (per step and direction in 2D) times the padded norm, plus steps * 2^-74 for underflow. The same bound with general constants holds for every arithmetic with bounded relative and absolute error, including fused multiply-add. Without a bound on the norm finite signals give infinite coefficients.", "quantifier": "all finite float32 signals in the magnitude range, all accepted parameters (sizes, channels, wavelet types, steps), all reached buffers", "why_tests_cant": "rounding over all inputs", "anchors": ["sources/wavelet.cc:dwt", "sources/wavelet.cc:idwt", "sources/wavelet_utils.cc:ComposeImpl"]}
{"id": "C58", "title": "Composing a parsed buffer", "statement": "A buffer returned by Parse whose subbands have the layout of its parameters can be composed at every scale without any out-of-range access; Parse itself does not check that layout, and some accepted blobs make Compose access memory out of range.", "quantifier": "all byte strings", "why_tests_cant": "all byte strings; needs a crafted blob", "anchors": ["sources/wavelet_buffer_serializer.cc:WaveletBufferSerializer::Parse", "sources/wavelet_buffer.cc:Impl::Compose"]}
{"id": "C59", "title": "Parsed buffers are consistent", "statement": "Every buffer Parse makes of version 3 bytes has parameters the constructor accepts, the declared number of channels, the declared number of subbands per channel and well-formed subbands. Not so for version 2 bytes, and Parse itself is not safe on every byte string.", "quantifier": "all byte strings starting with version 3, any external codec", "why_tests_cant": "all byte strings", "anchors": ["sources/wavelet_buffer_serializer.cc:WaveletBufferSerializer::Parse", "sources/wavelet_buffer_serializer.cc:WaveletBufferSerializerLegacy::Parse"]}
{"id": "C60", "title": "CompressedSize", "statement": "CompressedSize is four bytes for every stored value that is not zero, as long as that is below 2 GiB; for more it is always wrong.", "quantifier": "all buffers", "why_tests_cant": "needs buffers of more than 2 GiB", "anchors": ["sources/wavelet_buffer.cc:Impl::CompressedSize"]}
{"id": "C61", "title": "JPEG codecs: decode after encode", "statement": "With a JPEG library that loses nothing, decoding what Encode produced gives back every channel with each sample rounded to its 8-bit value, at any start channel and into any image.", "quantifier": "all images, start channels, lossless libraries, pixel conversions", "why_tests_cant": "all images and channel layouts", "anchors": ["sources/img/jpeg_codecs.cc:Encode", "sources/img/jpeg_codecs.cc:Decode"]}
{"id": "C62", "title": "A WaveletImage without decomposition steps is transparent", "statement": "Importing into WaveletImage(channels, w, h) and exporting the same channels hands to the codec exactly the imported image; with the JPEG codec it is the same 8-bit picture.", "quantifier": "all pictures, codecs, channel numbers and start channels, JPEG libraries", "why_tests_cant": "all pictures and layouts", "anchors": ["sources/img/wavelet_image.cc:WaveletImage", "sources/img/wavelet_image.cc:ImportFromString", "sources/img/wavelet_image.cc:ExportToString"]}
{"id": "C63", "title": "HSL/RGB conversion round trip", "statement": "With exact arithmetic RGBToHSL(HSLToRGB(h,s,l)) returns s and l exactly and h within 1/60, for colours that are not grey (chroma at least 0.001); the hue itself is not always exact (refuted by example).", "quantifier": "all hues in [0,1), saturations and luminances in [0,1]", "why_tests_cant": "piecewise function over a continuum", "anchors": ["sources/img/color_space.cc:RGBToHSL", "sources/img/color_space.cc:HSLToRGB"]}
{"id": "C64", "title": "JPEG quality argument", "statement": "The JPEG codecs refuse every quality outside [0,1] and hand a percentage in 0..100 to the library for every other number; NaN is accepted and its conversion is undefined (refutes 'an accepted quality is usable').", "quantifier": "all floats", "why_tests_cant": "2^32 floats", "anchors": ["sources/img/jpeg_codecs.cc:CheckRangeQuality", "sources/img/jpeg_codecs.cc:Encode"]}
{"id": "C65", "title": "Legacy compressor: small matrices are read back", "statement": "For every sparse matrix of at most 2^15 elements (positions strictly increasing, no zero among the values, precision 7..21 or 23) Compress with room for 4*(74+3n) bytes returns true, the stream is at most that long, and a new object with room for it decompresses it to the same precision, orientation, size and positions, and to the values rounded to the precision (C66).", "quantifier": "all such matrices, all capacities", "why_tests_cant": "the code table is chosen from the histogram of the data by floating-point comparisons; tests see a few histograms", "anchors": ["sources/internal/sf_compressor.cc:Compress", "sources/internal/sf_compressor.cc:Decompress"]}
{"id": "C66", "title": "Legacy compressor: accuracy of one value", "statement": "The value read back for a normal float differs from it by at most a relative 2^-(precision+1), is the float itself at precision 23, and is normal again unless the float is within 2^15 ulps of overflow; numbers below the smallest normal number are not kept at any precision (refuted: read back as zero).", "quantifier": "all 32-bit floats, all precisions", "why_tests_cant": "2^32 floats times 16 precisions", "anchors": ["sources/internal/sf_compressor.cc:Compress", "sources/internal/sf_compressor.cc:Decompress", "sources/internal/sf_compressor.cc:float2fraction"]}
{"id": "C67", "title": "Legacy compressor: matrices of any size", "statement": "The round trip holds for every size for which the chosen code lengths use up all codes exactly; it does not hold for every accepted matrix: there are matrices for which Compress returns true and the stream cannot be read, and matrices for which Compress accesses a table out of range.", "quantifier": "all sparse matrices of at most 2^31 elements", "why_tests_cant": "needs matrices of about 2^31 elements with special gaps", "anchors": ["sources/internal/sf_compressor.cc:Compress", "sources/internal/sf_compressor.cc:Decompress"]}
{"id": "C68", "title": "Legacy compressor: what is refused", "statement": "Compress returns false for every precision that is not offered, for more values than elements and for different numbers of values and positions; it does not refuse an empty list of values or a zero among the values (both undefined behaviour, refuted).", "quantifier": "all inputs", "why_tests_cant": "absence of undefined behaviour", "anchors": ["sources/internal/sf_compressor.cc:Compress"]}
{"id": "C69", "title": "Legacy compressor: one object for two streams", "statement": "A Decompress call answers from the stream alone, whatever was decompressed before with the same object (refuted: the second of two streams is read wrongly).", "quantifier": "all histories of calls", "why_tests_cant": "history dependent", "anchors": ["sources/internal/sf_compressor.cc:Decompress"]}
{"id": "C70", "title": "Compressed version 2 blobs", "statement": "Parse of a version 2 blob whose subbands (at most 2^15 elements each) were written by the legacy compressor returns the buffer with all shapes and zeros kept and the other values rounded to the stored precision, provided the streams fit the memory Parse reserves; cut blobs and streams of another compressor version are refused; the values of a decomposed channel always fit the reserved memory, the stream does not always (refuted: a three-sample signal).", "quantifier": "all buffers, precisions, streams, bytes that follow, cut positions", "why_tests_cant": "old blobs of every shape; memory safety of the reserved buffer", "anchors": ["sources/wavelet_buffer_serializer.cc:ParseCompressedSubbands", "sources/wavelet_buffer_serializer.cc:GetMemorySizeForSfCompressor", "sources/internal/sf_compressor.cc:Decompress"]}
{"id": "C71", "title": "Legacy compressor: comparison of matrices", "statement": "A matrix of normal floats compares equal (operator==) to what is read back from its stream, and matrices of different size, positions or precision are never equal; the comparison says equal for NaN against any number, and == and != can both be true (refuted).", "quantifier": "all sparse matrices of at most 2^15 elements", "why_tests_cant": "float comparison with a tolerance that must cover every rounding", "anchors": ["sources/internal/sf_compressor.cc:OriginalData::operator==", "sources/internal/sf_compressor.cc:OriginalData::operator!="]}
{"id": "C72", "title": "Python: a contiguous float32 array is decomposed and composed item by item", "statement": "buffer.decompose(a) of a C-contiguous, writable float32 array of the buffer's shape behaves as Decompose of the signal with a's items; compose returns a float32 array [channels, height/2^sf, width/2^sf] with the items of the composed signal; with no steps the array comes back; an array of another shape raises and leaves the buffer unchanged.", "quantifier": "all arrays, buffers reached by any history, denoisers, sample arithmetic, scale factors", "why_tests_cant": "index arithmetic over every shape", "anchors": ["python/src/blaze_utils.cc:PyArrayToSignalN2D", "python/src/blaze_utils.cc:SignalN2DToPyArray", "python/src/wavelet_buffer.cc:DecomposeN2DSignal"]}
{"id": "C73", "title": "Python: what a 2D decompose reads of other arrays", "statement": "For an array of the right shape the memory is read as consecutive float32 values, whatever strides and dtype: transposed, sliced or float64 arrays are silently stored wrongly, arrays of smaller items are read past their end, read-only arrays are refused.", "quantifier": "all arrays", "why_tests_cant": "needs arrays the tests never build", "anchors": ["python/src/blaze_utils.cc:PyArrayToSignalN2D"]}
{"id": "C74", "title": "Python: 1D arrays of any layout are decomposed by value", "statement": "For a one-channel 1D buffer decompose takes the items of a 1D array whatever its strides and, cast to float, its dtype; compose returns n/2^sf samples.", "quantifier": "all arrays, strides and dtypes, reached buffers, scale factors", "why_tests_cant": "all strides", "anchors": ["python/src/wavelet_buffer.cc:Decompose1DSignal", "python/src/wavelet_buffer.cc:Compose1DSignal"]}
{"id": "C75", "title": "Python: compose of a 2D buffer without channels", "statement": "A 2D buffer can be constructed with zero channels; composing it from Python is an out-of-range access.", "quantifier": "all accepted parameters with zero channels, all scale factors", "why_tests_cant": "undefined behaviour", "anchors": ["python/src/blaze_utils.cc:SignalN2DToPyArray"]}
{"id": "C76", "title": "Python: slices select the channels Python's rules select", "statement": "buffer[start:stop] is a view of exactly the channels i with start <= i < stop after resolving negative bounds, other steps raise; decompose on the slice is the decomposition of the C++ view with the array's items, compose on it gives the selected channels of the composed buffer; both are refused for buffers that are not two-dimensional. Empty slices raise only if start equals stop; otherwise (buffer[2:1]) a view with negative count is made whose compose ends in a C++ exception.", "quantifier": "all slice bounds (present or absent, any integer) and channel counts", "why_tests_cant": "all integers", "anchors": ["python/src/wavelet_buffer.cc:__getitem__", "python/src/wavelet_buffer_view.cc"]}
{"id": "C77", "title": "Python: buffer.decompositions given to the constructor makes the same buffer", "statement": "A buffer constructed from another's parameters and decompositions holds the same subbands. Read-only subbands are refused. Transposed subbands are stored wrongly and one-dimensional ones are read past their dimensions.", "quantifier": "all buffers with the subband counts of their parameters", "why_tests_cant": "all shapes", "anchors": ["python/src/blaze_utils.cc:NWaveletDecompositionToNPy", "python/src/blaze_utils.cc:NPyDecompositionToNW"]}
{"id": "C78", "title": "Python: a codec's encode takes the items of a three-dimensional array", "statement": "encode(a) of a C-contiguous float32 array [c, h, w] encodes the signal with a's items; a two-dimensional array is undefined behaviour (no check).", "quantifier": "all arrays and codecs", "why_tests_cant": "all shapes", "anchors": ["python/src/img/codecs.cc:encode"]}
{"id": "C79", "title": "DaubechiesMat with ZeroDerivative filters the signal continued at its edges", "statement": "dwt with DaubechiesMat(n, 2t, Padding::ZeroDerivative) equals filtering the signal continued with its first and last sample; a constant signal has no high band (up to 1e-10 of the constant). The transposed matrix is not the inverse. An odd order, or an order above the size, has no defined result with any padding, and from 2^31 + 2 samples on the int indexes overflow.", "quantifier": "all signals of at least 2t samples, t = 1..10, exact arithmetic; sizes up to 2^31 - 10 (int indexes)", "why_tests_cant": "every length and every position near an edge", "anchors": ["sources/wavelet.cc:DaubechiesMat", "wavelet_buffer/wavelet.h:Padding"]}
{"id": "C80", "title": "Python energy_distribution", "statement": "For a 2D buffer with elements the array [channels, subbands] holds the energy of every subband; for a 1D buffer only the first channel is reported, and for a buffer without elements the call is undefined behaviour (found violations).", "quantifier": "all buffers, exact arithmetic", "why_tests_cant": "every layout", "anchors": ["python/src/wavelet_buffer.cc:energy_distribution", "python/src/blaze_utils.cc:VecVecToPyArray"]}
{"id": "C81", "title": "Python decode", "statement": "decode of a picture the library loads is the array [channels, height, width] of its planes; other data raises; decode(encode(a, s)) gives back the channels of a from s up to rounding to 8 bits with a lossless library.", "quantifier": "all pictures, arrays, start channels, JPEG libraries", "why_tests_cant": "every size and start channel", "anchors": ["python/src/img/codecs.cc:decode,encode"]}
{"id": "C82", "title": "Python WaveletImage raises exactly when refused", "statement": "import raises iff the status is not kOk, and then the image is unchanged; export returns exactly what the codec makes of the composed channels; save then load returns the image. An export that raises may have emptied the file (found violation).", "quantifier": "all images, codecs, data, file systems", "why_tests_cant": "every failure", "anchors": ["python/src/img/wavelet_image.cc"]}
{"id": "C83", "title": "Distance of images", "statement": "DB1, sides divisible by 2^steps, samples in [0, 1]: the distance is in [0, 1]; an image has distance 0 to itself, so the Python docstring (1 - the same) is wrong for every image.", "quantifier": "all images, exact arithmetic", "why_tests_cant": "every pair of images", "anchors": ["sources/img/wavelet_image.cc:CompareTo", "python/src/img/wavelet_image.cc:distance"]}
{"id": "C84", "title": "RGB -> HSL -> RGB in binary32", "statement": "With float arithmetic every colour with components in [0, 1] gives finite hue and luminance in [0, 1] and saturation in [0, 1.001], and comes back within 0.001001; within 0.00012 unless almost grey; within 0.000012 unless two components are almost equal and largest; greys come back exactly. 'The saturation is at most 1' is false (found violation).", "quantifier": "all triples of finite floats in [0, 1]", "why_tests_cant": "2^90 colours and their rounding errors", "anchors": ["sources/img/color_space.cc:RGBToHSL,HSLToRGB"]}
{"id": "C85", "title": "8-bit pictures through the HSL codec", "statement": "A colour picture decoded and encoded with the HSL codec has the same size and every 8-bit value the same or one less; greys are unchanged; n passes lower a value by at most n. 'The picture is the same' is false and the loss adds up over passes (found violations).", "quantifier": "all pictures, JPEG libraries, start channels, numbers of passes", "why_tests_cant": "every picture and every history of passes", "anchors": ["sources/img/jpeg_codecs.cc:HslJpegCodec", "sources/img/color_space.cc"]}
{"id": "C86", "title": "Compose of moved coefficients", "statement": "Composing coefficients that were denoised, quantised or edited gives a signal whose distance from the original is at most what an undisturbed round trip may lose plus the distance of the coefficients times a constant that is 1 for DB1 and 1 + 1e-5 or closer for the others, in exact arithmetic and in any rounded arithmetic; so a threshold T that zeroes n coefficients moves the signal by at most T sqrt(n) (DB1).", "quantifier": "all accepted parameters, signals, denoisers, channels of the right layout, rounded arithmetics", "why_tests_cant": "every signal and every change of its coefficients", "anchors": ["sources/wavelet_buffer.cc:Decompose,Compose", "wavelet_buffer/denoise_algorithms.h:ThresholdAbsDenoiseAlgorithm", "sources/wavelet_utils.cc"]}
{"id": "C87", "title": "Decompose after Compose", "statement": "When the sides are multiples of 2^steps, decomposing what Compose made gives the coefficients back: exactly with DB1 and exact arithmetic, otherwise within the same relative error as the other round trip. With padding they do not come back (found violation).", "quantifier": "all accepted parameters with unpadded sides, all channels of the right layout, all rounded arithmetics", "why_tests_cant": "every buffer content, also those no signal was decomposed into", "anchors": ["sources/wavelet_buffer.cc:Decompose,Compose", "sources/wavelet_utils.cc", "sources/padding.cc"]}
{"id": "C88", "title": "Decompose of close signals", "statement": "The decompositions of two signals are as close as the padded signals, up to a constant that is 1 for DB1; with DB1 and unpadded sides Compose keeps distances exactly.", "quantifier": "all accepted parameters and pairs of signals", "why_tests_cant": "every pair of signals", "anchors": ["sources/wavelet_buffer.cc:Decompose,Compose"]}
{"id": "C89", "title": "How accurate the stored coefficients and the composed signal are", "statement": "The coefficients Decompose stores differ from those exact arithmetic would store by at most 3.8e-6 times the norm of the padded signal per pass and step, and the signal Compose makes of any stored coefficients differs from the exactly composed one by at most as much of the norm of the coefficients: in any arithmetic whose operations round with relative error u, and in IEEE single precision for every finite signal whose norm is at most 2^110 (coefficients: 2^111).", "quantifier": "all accepted parameters, signals, channels of the right layout, rounded arithmetics; all finite floats within the norm", "why_tests_cant": "every input; rounding errors of all levels accumulate", "anchors": ["sources/wavelet_buffer.cc:Decompose,Compose", "sources/wavelet_utils.cc", "wavelet_buffer/primitives.h"]}
{"id": "C90", "title": "Energy of the stored coefficients", "statement": "The stored coefficients of a channel have the same sum of squares as the padded channel, up to 7.5e-6 per pass and step of its root, in single precision and for every wavelet, so compressing small coefficients away is compressing little of the signal away.", "quantifier": "all accepted parameters and signals, all rounded arithmetics, all finite float signals of norm up to 2^110", "why_tests_cant": "every signal", "anchors": ["sources/wavelet_buffer.cc:Decompose", "sources/wavelet_utils.cc"]}
{"id": "C91", "title": "The library denoisers on floats", "statement": "ThresholdAbsDenoiseAlgorithm<float> keeps exactly the values whose magnitude is above a*step+b (rounded twice) and zeroes the others and NaNs (infinities are kept; a threshold that is NaN or positive infinity zeroes everything); SimpleDenoiseAlgorithm<float> with a level in [0,1] drops n*level values up to one and a relative 2^-22, never a larger one than it keeps, with any conforming nth_element; level 0 keeps everything; a negative level is undefined behaviour (found violation).", "quantifier": "all finite levels, thresholds, finite vectors and matrices of up to 2^62 values, all conforming nth_element implementations", "why_tests_cant": "every float value and every size", "anchors": ["wavelet_buffer/denoise_algorithms.h:ThresholdAbsDenoiseAlgorithm,SimpleDenoiseAlgorithm"]}
{"id": "C92", "title": "A composed sample depends on a window of the signal", "statement": "After Decompose without denoising and Compose, sample (i, j) depends on the padded signal less than W samples around it (cyclically) only, W = 2^steps for DB1: two signals of the same parameters that agree there give bit-identical samples there, in any arithmetic, floats with overflows and NaNs included, whatever the buffers held before.", "quantifier": "all accepted parameters, pairs of signals, buffers reached by any history, sample positions, sample types and arithmetics", "why_tests_cant": "every position and every size; needs pairs of inputs", "anchors": ["sources/wavelet_buffer.cc:Decompose,Compose", "sources/wavelet_utils.cc:dwt,idwt,dwt2d,idwt2d", "sources/padding.cc"]}
{"id": "C93", "title": "The error of a sample does not grow with the size of the signal", "statement": "If the samples are bounded by B, every composed sample differs from the original by at most 7.5e-6 (DB1: 1.02e-6) per pass and step times B times the root of the number of samples in its window, independent of the size of the signal, in single precision; and with the rounding unit in place of the constant in any rounded arithmetic.", "quantifier": "all accepted parameters, all finite float signals bounded by B <= 2^46, all rounded arithmetics", "why_tests_cant": "every input; the error of large signals", "anchors": ["sources/wavelet_buffer.cc:Decompose,Compose", "sources/wavelet_utils.cc"]}
{"id": "C94", "title": "What changed coefficients do to one sample", "statement": "If no detail coefficient moved by more than T and no approximation coefficient by more than T0 then every composed sample moves by at most sqrt(c (steps*bands*T^2 + T0^2)) times a gain close to 1, on top of the error of C93; c = 1 for DB1. So ThresholdAbsDenoise with thresholds up to T changes no sample by more than T sqrt(3 steps) for DB1 pictures of any size.", "quantifier": "all accepted parameters, signals, stored channels, thresholds; any rounded arithmetic and single precision", "why_tests_cant": "every combination of changes", "anchors": ["sources/wavelet_buffer.cc:Compose", "wavelet_buffer/denoise_algorithms.h:ThresholdAbsDenoiseAlgorithm"]}
{"id": "C95", "title": "8-bit pictures survive decomposition up to one level", "statement": "A picture whose samples are 8-bit levels (as the JPEG codecs decode them) decomposed without denoising and composed gives, encoded, every level or the level below it, up to 7 steps of DB1, 3 of DB2 and DB3, 2 of DB4 and DB5, for every size; not always the same level: the conversion to 8 bits truncates, so a white 2x2 picture comes back darker (found violation).", "quantifier": "all pictures, sizes, buffers reached by any history, JPEG libraries", "why_tests_cant": "every picture and size; rounding", "anchors": ["sources/wavelet_buffer.cc:Decompose,Compose", "sources/img/jpeg_codecs.cc:ToPixel,Decode,Encode", "sources/img/wavelet_image.cc:ImportFromString,ExportToString"]}
{"id": "C96", "title": "Lossy compression end to end", "statement": "Decompose a signal (with the null denoiser or one that keeps or zeroes coefficients), Serialize it with sf_compression s >= 1 and a float codec that moves every number by at most the fraction d of its magnitude and e, Parse the bytes and Compose: every step succeeds and the root of the squared error of a channel is at most (passes*steps*7.5e-6 + 1.03 d) times the norm of the padded signal plus 1.01 e times the root of the number of coefficients, plus what the denoiser removed. A codec that keeps the upper 33-s bits has d = 2^(s-24); with sf_compression 0 the floats come back bit by bit.", "quantifier": "all accepted parameters with sides of at least 1, padded sides below 2^31 and below 2^32 padded samples, finite float signals of energy up to 2^220, sf_compression values, float codecs with that accuracy, denoisers, reachable buffers", "why_tests_cant": "every signal, codec and compression level; sum of rounding and codec errors", "anchors": ["sources/wavelet_buffer.cc:Decompose,Compose,Serialize,Parse", "sources/wavelet_buffer_serializer.cc:SerializeBuffer,ParseBuffer", "sources/internal/matrix_compressor.cc:Compress,Decompress"]}
{"id": "C97", "title": "How large coefficients get", "statement": "If the samples are bounded by B, no coefficient of a subband that went through n filter passes exceeds (sqrt 2 c)^n B, c = 1 for DB1 and up to 1.7895 for DB10; the bound is met by constant signals with DB1. In single precision nothing overflows for B up to 2^46 and the bound holds with a factor 1.0002 and 2^-136 added to B.", "quantifier": "all accepted parameters, signals bounded by B, any rounded arithmetic, exact arithmetic and single precision", "why_tests_cant": "every signal; the growth over all steps", "anchors": ["sources/wavelet_buffer.cc:Decompose", "sources/wavelet_utils.cc:dwt,dwt2d,db_wavelet,dwt_matrix"]}
{"id": "C98", "title": "What lossy compression does to one sample, and to an 8-bit picture", "statement": "If the samples are bounded by B, Decompose, Serialize with a float codec of relative accuracy d, Parse and Compose change no sample by more than a bound that depends on B, d, the wavelet and the number of steps, not on the size of the signal. For 8-bit pictures, up to 6 steps of DB1 and a codec that keeps the upper 33-s bits: if steps + s <= 13 every level comes back or the level below it; every further bit doubles the distance.", "quantifier": "all accepted parameters with sides of at least 1, padded sides below 2^31 and below 2^32 padded samples, bounded finite float signals of any size, codecs, sf_compression values, pictures", "why_tests_cant": "every picture, size and compression level", "anchors": ["sources/wavelet_buffer.cc:Decompose,Compose,Serialize,Parse", "sources/wavelet_buffer_serializer.cc:SerializeBuffer,ParseBuffer", "sources/img/jpeg_codecs.cc:ToPixel"]}
{"id": "C99", "title": "Composing at a reduced size", "statement": "Decompose a signal in K steps and Compose it with scale factor k <= K: up to a small error the result is the middle of the approximation a k-step decomposition of the padded signal stores, divided by 2^k (2D) or sqrt(2)^k (1D). In exact arithmetic the two are equal for DB1 and for the other wavelets differ only by what the printed coefficients lack; in single precision the root of the squared differences is at most (passes*K*7.5e-6 + 1e-6) times the norm of the padded signal divided by that factor, plus (K+1)*2^-73, whatever accurate division is used. For DB1 the samples are the means of blocks of 2^k samples, in single precision too.", "quantifier": "all accepted parameters, scale factors up to the number of steps, reachable buffers, signals (finite float signals of energy up to 2^220), any rounded arithmetic, any division accurate to 2^-23", "why_tests_cant": "every signal, shape, number of steps and scale factor; sums of rounding errors", "anchors": ["sources/wavelet_buffer.cc:Decompose,Compose", "sources/wavelet_utils.cc:ComposeImpl,CropPadding"]}
{"id": "C100", "title": "Damaged and foreign blobs", "statement": "Whatever bytes follow a complete version 3 header without compression, Parse returns a buffer or a null pointer, unless a matrix in them claims 2^64 elements or more. Parameters the constructor would refuse give a null pointer. In a blob Serialize wrote without compression, damage to the tag of any subband or a larger element count give a null pointer; damage to the bytes of one value changes this value only and the rest is read as it was. Wrong tags and counts in the first compressed subband, or of the channels of an uncompressed version 2 blob, give a null pointer.", "quantifier": "all byte strings, all parameters of a header, all storable buffers, all positions of the damage and all replacement bytes, any codecs", "why_tests_cant": "there are far too many byte strings and positions; undefined behaviour need not show in a test", "anchors": ["sources/wavelet_buffer_serializer.cc:Parse,Serialize", "wavelet_buffer/wavelet_parameters.h:deserialize"]}
{"id": "C101", "title": "repr in Python shows the parameters", "statement": "The text Python shows for parameters (and for a buffer) has every field behind its name, as a decimal numeral or as the name of the wavelet type, and parameters with the same text are equal when the wavelet types are NONE to DB5. Other wavelet types are all shown as Unknown.", "quantifier": "all parameters a WaveletParameters can hold", "why_tests_cant": "every number of sides, channels and steps up to 2^64", "anchors": ["python/src/wavelet_parameters.cc:WaveletParametersRepr,WaveletTypeRepr", "python/src/wavelet_buffer.cc:__repr__"]}
{"id": "C102", "title": "Printing to a stream", "statement": "operator<< writes every parameter behind its name and the text determines the parameters, for buffers too. The claim that printing a buffer to a stream touches this stream only is wrong: the lines that number the channels go to std::cout, one for each channel.", "quantifier": "all parameters and buffers, any printer of Blaze vectors whose text determines the vector, any printer of matrices", "why_tests_cant": "every value of the parameters; the effect on another stream", "anchors": ["wavelet_buffer/wavelet_parameters.h:operator<<", "sources/wavelet_buffer.cc:operator<<"]}
{"id": "C103", "title": "Energies in floats", "statement": "EnergyDistribution gives one float for each channel and subband of a buffer of finite values, within about 2^-23 of the exact sum of squares, whatever order the squares are added up in. It is never NaN or negative, and infinite only for energies beyond the range of floats.", "quantifier": "all buffers of finite values with subbands of at most 2^27 values, every order and bracketing of the additions", "why_tests_cant": "all values and sizes; the order of additions depends on the machine", "anchors": ["sources/wavelet_utils.cc:EnergyDistribution"]}
{"id": "C104", "title": "Distance in floats", "statement": "In float arithmetic Distance is symmetric to the last bit (infinities and NaN included) and zero from a buffer of finite values to itself. For finite values whose squared differences add up to at most 2^120 it is finite, never negative, and within (N + 8) * 2^-23 of the mean squared difference, where N (below 2^22) is the number of values of the largest subband, whatever order the squares are added up in. A distance of zero does not mean equal buffers.", "quantifier": "all pairs of buffers of the same parameters, every order and bracketing of the additions, every std::pow that is good to 2^-52", "why_tests_cant": "all values and sizes; rounding errors add up with the size; the order of additions depends on the machine", "anchors": ["sources/wavelet_utils.cc:Distance"]}
{"id": "C105", "title": "The whole pipeline, sample by sample", "statement": "Decompose with a threshold denoiser, Serialize with loss, Parse and Compose in float arithmetic: every call succeeds, and each sample moves by at most rounding errors plus a bound on the cleared and the truncated coefficients that does not depend on the signal's length. For the example of README.md (samples up to 100, three steps of DB1, thresholds up to 1, sf_compression 16) that is 2.22.", "quantifier": "all signals of finite floats up to 2^46, channel counts, sizes with padded sides below 2^31 and below 2^32 padded samples, thresholds, wavelets and float codecs with a bounded relative loss", "why_tests_cant": "all signals and sizes; errors of four stages add up", "anchors": ["README.md:Usage Example", "sources/wavelet_buffer.cc:Decompose", "sources/wavelet_buffer.cc:Compose", "sources/wavelet_buffer_serializer.cc:Serialize", "wavelet_buffer/denoise_algorithms.h:ThresholdAbsDenoiseAlgorithm"]}
{"id": "C106", "title": "Python: decomposition_size is the number of subbands", "statement": "WaveletBuffer.decomposition_size(shape, steps) is the length of every channel of decompositions of every buffer of that shape and those steps, and the constructor accepts decompositions only with that many subbands in every channel and as many channels as signal_number.", "quantifier": "all accepted parameters, all histories of the buffer, all lists of arrays", "why_tests_cant": "all shapes, steps and histories", "anchors": ["python/src/wavelet_buffer/wavelet_buffer.py:decomposition_size", "python/src/wavelet_buffer.cc:decomposition_size", "sources/wavelet_utils.cc:DecompositionSize"]}
{"id": "C107", "title": "Colour pictures stored as hue, saturation and luminance", "statement": "Importing an 8-bit colour picture with the HSL codec, without denoising, and exporting it with the HSL codec hands the JPEG library a picture of the same size with every 8-bit value the same or one less, for up to 5 steps of DB1 and 1 step of DB2 to DB5: moving hue, saturation and luminance by up to e (at most 0.0007) moves a colour by at most 9 e + 0.00102. Composing such a buffer at a reduced size averages hues, which are angles: a picture of reds is reduced to a cyan.", "quantifier": "all pictures, all sizes, all buffers with few enough steps and their histories, all JPEG libraries; for the conversion all float colours and all float hues, saturations and luminances near theirs", "why_tests_cant": "all pictures and all rounding errors of the transform and the conversions", "anchors": ["sources/img/color_space.cc:HSLToRGB", "sources/img/jpeg_codecs.cc:HslJpegCodec", "sources/img/wavelet_image.cc:ImportFromString,ExportToString"]}
{"id": "C108", "title": "The channels of a view, read and written one by one", "statement": "decompositions() of an in-range view of a mutable buffer lists exactly the buffer's channels start .. start+count-1, and storing a channel through it changes that channel of the buffer and nothing else; a decomposed channel moved so from one buffer to another of the same parameters is composed to the same signal there and leaves the other channels' compositions unchanged. A range that ends beyond the buffer is refused with an exception, a negative start or count that ends inside is not noticed, and a view of a const buffer has nothing to read (found violations).", "quantifier": "all accepted parameters, all histories of the buffer, all int starts and counts, all channels", "why_tests_cant": "frame property for all states; int to size_t conversions", "anchors": ["sources/wavelet_buffer_view.cc:decompositions", "wavelet_buffer/wavelet_buffer_view.h:decompositions"]}
{"id": "C109", "title": "What the filters are", "statement": "For every wavelet type 1 to 10 there is an orthonormal low-pass filter with that many vanishing moments (orthogonal to its even shifts, of norm 1, alternating sums with all polynomials of lower degree 0, sum sqrt 2) and the library's coefficients agree with it to the accuracy its table is printed with: exactly for DB1, 1.7e-16 for DB6, 2.6e-11 for DB9, at most 3.7e-12 for the others; the high-pass filter is its mirror with alternating signs, the decomposition filters are the reconstruction filters reversed.", "quantifier": "all wavelet types; existence over the reals", "why_tests_cant": "the exact filters are algebraic numbers no program holds; their existence near the printed decimals has to be proved", "anchors": ["sources/wavelet_utils.cc:dbwavf,orthfilt", "wavelet_buffer/wavelet_utils.h"]}
{"id": "C110", "title": "Details of smooth stretches vanish", "statement": "Where the samples a detail coefficient is computed from are a polynomial of degree less than the wavelet type along the columns (rows), the coefficient is zero up to the accuracy of the tables, times a constant per level, times the magnitude of the samples (exactly zero for DB1); in single precision up to rounding errors of 6e-8 (2t+4) per pass. Subbands 0 and 2 of a step see the columns, 1 and 2 the rows.", "quantifier": "all accepted parameters, signals, levels, places, polynomials; exact arithmetic and all finite floats up to 2^46", "why_tests_cant": "every polynomial, place and level", "anchors": ["sources/wavelet_buffer.cc:Decompose", "sources/wavelet_utils.cc:dwt,dwt2d,dbwavf"]}
{"id": "C111", "title": "How accurate one stored coefficient is", "statement": "If no sample exceeds B in magnitude every single stored coefficient differs from the one exact arithmetic would store by at most S^n (6e-8 n (2t+4) B + 2^-135), n the passes its subband went through and S the sum of the magnitudes of the filter, whatever the size of the signal; and by the difference of the two peaks in any rounded arithmetic.", "quantifier": "all accepted parameters, signals, subbands and places; any rounded arithmetic and single precision up to 2^46", "why_tests_cant": "every input; rounding errors of all levels accumulate", "anchors": ["sources/wavelet_buffer.cc:Decompose", "sources/wavelet_utils.cc"]}
{"id": "C112", "title": "Composing a buffer nothing was decomposed into", "statement": "Compose of a fresh buffer never produces a signal and never answers false: with steps to undo it throws for 1D parameters and trips an assertion (mismatched matrix sizes) for 2D ones, without steps it trips an assertion when cropping the empty approximation; only for 2D parameters whose scaled shape is empty too it answers true, with empty matrices (found violation: no defined refusal).", "quantifier": "all accepted parameters, scale factors from 0, sample types and arithmetics", "why_tests_cant": "all parameters; the outcome depends on dimension, steps and scale factor", "anchors": ["sources/wavelet_buffer.cc:Compose", "sources/wavelet_utils.cc:ComposeStep,ComposeImpl", "sources/padding.cc:Crop"]}
{"id": "C113", "title": "A picture through import, lossy storage and export", "statement": "The program of examples/image_example.cc works for every colour picture: importing a JPEG with a threshold denoiser, serializing with compression, parsing and exporting all succeed, the exported picture has the size of the original, and every 8-bit level differs from the original by at most k levels, for a k given by the thresholds, the wavelet, the steps and the loss of the float codec; with up to 6 steps of DB1, one threshold t and steps + sf_compression at most 13, k = 1 + 1117 t.", "quantifier": "all colour pictures with padded sides below 2^31 and below 2^32 padded pixels, parameters, thresholds, compression levels, JPEG libraries and float codecs of bounded loss", "why_tests_cant": "all pictures and all parameters; pixels depend on rounding at every step", "anchors": ["examples/image_example.cc", "sources/img/wavelet_image.cc:ImportFromString,ExportToString", "sources/img/jpeg_codecs.cc:RgbJpegCodec", "sources/wavelet_buffer_serializer.cc"]}
{"id": "C114", "title": "Every sample of a reduced picture", "statement": "Composing at a scale factor k gives, at every single position, the coefficient that decomposing the padded signal in k exact steps would give, divided by the factor of the size reduction, up to an error that depends on the parameters and the largest sample only, not on the size of the signal: with DB1 the mean of the block of samples. Details moved by at most T and approximation coefficients moved by at most T0 before composing, as by thresholds and lossy storage, add at most sqrt(cone * (levels * bands * T^2 + T0^2)) divided by that factor, times 1.01 in single precision. A colour JPEG picture decoded, decomposed with up to 6 steps of DB1, composed at k and encoded again has levels that are the means of the blocks of levels rounded down, up to 1/2^(k+2).", "quantifier": "all parameters, scale factors, signals bounded by 2^46, moved coefficients, thresholds, compression levels, JPEG libraries and float codecs of bounded loss (for stored buffers: padded sides below 2^31 and below 2^32 padded samples)", "why_tests_cant": "samples of signals of every size; a test sees single pictures and cannot bound what rounding does at other sizes", "anchors": ["sources/wavelet_buffer.cc:WaveletBuffer::Compose,Decompose", "sources/wavelet_buffer_serializer.cc", "sources/img/jpeg_codecs.cc:RgbJpegCodec"]}
{"id": "C115", "title": "Buffers are values, in every order of copies, moves, assignments and destruction", "statement": "Any history of constructing, copying, moving, assigning, swapping and destroying WaveletBuffers, decomposing into them, taking views and references to channels and writing through them has the results it would have if every buffer were a plain value: a copy is equal and independent, self-assignment and self-move keep the contents, std::swap exchanges two buffers without copying, a moved-from buffer can only be assigned or destroyed, an operation that throws leaves all buffers as they were. No memory is deleted twice, read after deletion or left over when no buffer has contents. A view follows its buffer through assignments; a reference to a channel follows the contents when they are moved and dies when they are assigned over or destroyed.", "quantifier": "all histories of these operations, with any parameters, signals, allocation failures and number of buffers", "why_tests_cant": "the histories are unbounded, and a double deletion or aliasing shows only in the interleavings a test does not run", "anchors": ["wavelet_buffer/wavelet_buffer.h:WaveletBuffer", "sources/wavelet_buffer.cc:WaveletBuffer::WaveletBuffer,operator=,operator[],operator()", "sources/wavelet_buffer_view.cc:WaveletBufferView"]}
{"id": "C116", "title": "Programs that use buffers as documented never fail", "statement": "A history of calls in which every named buffer exists, every buffer that is read has contents, signals have the declared shape, every view used fits its buffer and every reference used is still alive runs to its end without undefined behaviour: every call succeeds, except that constructors throw for illegal parameters, a wrong number of channels or lack of memory. Every buffer it leaves has legal parameters, the declared number of channels, each decomposed or still empty, and composes at every scale factor up to the steps once all are decomposed.", "quantifier": "all such histories of any length over any number of buffers, views and references", "why_tests_cant": "histories are unbounded; a test runs a few of them", "anchors": ["wavelet_buffer/wavelet_buffer.h:WaveletBuffer", "sources/wavelet_buffer.cc:WaveletBuffer", "sources/wavelet_buffer_view.cc:WaveletBufferView"]}
{"id": "C117", "title": "Storing again and again loses nothing more", "statement": "If a buffer is serialized and parsed repeatedly at any compression levels in any order, the result is, up to signs of zeros, what the single coarsest level would have left of it: neither the number of generations nor their order matters. A buffer stored twice at one level is read back bit for bit when it is stored at that level again.", "quantifier": "all buffers with non-empty subbands of fewer than 2^32 elements, all lists of levels, all float codecs that change each value on its own by nested roundings", "why_tests_cant": "an unbounded number of generations over all contents", "anchors": ["sources/wavelet_buffer_serializer.cc:WaveletBufferSerializer::Serialize,Parse", "sources/internal/matrix_compressor.cc:BlazeCompressor"]}
{"id": "C118", "title": "Files of images over any history, with kills", "statement": "After any history of making, changing, importing, exporting, saving, loading and destroying WaveletImages, in any number of processes each of which may be killed at any point of any call, loading a file gives exactly the image most recently saved to that file if that Save was not cut short, however the image object, other files and processes fared afterwards; never an older image, a mixture or an image that was not saved there. If the last Save was cut short the result is a null pointer, or undefined if the cut is inside the header; so it is not true that a killed Save leaves the old or the new image.", "quantifier": "all histories of calls and kills, all files, images, environments (files that cannot be opened, writes that stop anywhere), codecs and denoisers", "why_tests_cant": "crash points and histories are unbounded", "anchors": ["sources/img/wavelet_image.cc:WaveletImageImpl::Save,ExportToFile,ImportFromFile,ImportFromString,WaveletImage::Load", "sources/wavelet_buffer.cc:WaveletBuffer::Parse,Serialize"]}
{"id": "C119", "title": "Threads on different channels", "statement": "Threads that share WaveletBuffers and call Decompose, Compose (of whole buffers or of views) and copy, so that no channel one thread decomposes is used by another, need no lock: no schedule leads to a data race, and if running the threads one after the other succeeds, every schedule that keeps giving each thread a turn finishes and the buffers and every result are then exactly those of that run. In particular the channels of one buffer can be shared out among threads by views, and the result is that of one Decompose (and one Compose). It is not true without the condition: a thread that composes a channel while another decomposes it can get a signal that is neither the old nor the new one.", "quantifier": "all buffers, numbers of threads, sequences of calls of each, signals, denoisers, arithmetic and schedules at the granularity of single subband accesses", "why_tests_cant": "schedules are unbounded and a race need not show in a run", "anchors": ["sources/wavelet_buffer_view.cc:WaveletBufferView::Decompose,Compose", "sources/wavelet_utils.cc:DecomposeImpl,ComposeImpl,ComposeStep", "sources/wavelet_buffer.cc:WaveletBuffer::Impl"]}
{"id": "C120", "title": "How many bytes a compressed blob takes", "statement": "A blob Serialize writes with compression takes exactly the header plus, for each subband, 80 bytes, the bytes of the places of its non-zero values (between 5/4 and 17/4 for each, the latter being what the code allocates) and what fpzip writes for these values. Hence a bound on the blob in terms of the number of non-zero values; replacing values by zeros never makes a blob larger (if fpzip does not take more for fewer values), so neither does denoising; a higher threshold leaves fewer values and SimpleDenoise(l) at most about 1 - l of the values of every detail subband. It is not true that a compressed blob is never larger than the uncompressed one: without zeros, and with values fpzip cannot compress, it is larger by 52 bytes or more for each subband.", "quantifier": "all storable buffers without empty subbands whose places fit 32 bits, compression levels >= 1, signals, denoisers, thresholds, levels and fpzip results", "why_tests_cant": "sizes depend on the number and places of zeros in all the subbands of any signal", "anchors": ["sources/internal/matrix_compressor.cc:BlazeCompressor,CompressValues,CompressIndexes", "sources/wavelet_buffer_serializer.cc", "wavelet_buffer/denoise_algorithms.h:ThresholdAbsDenoiseAlgorithm,SimpleDenoiseAlgorithm"]}
{"id": "C121", "title": "Python: arrays that are serialized and parsed", "statement": "serialize(level) is Serialize with that level for 0..255 and raises for what is no int; other ints wrap around (refutes 'other levels raise': -1 compresses most, 256 not at all). Stored at level 0 an array decomposed with any denoiser composes after parse to exactly the same array at every scale factor, and the parsed buffer is equal if no value is a NaN; a blob cut behind its header gives None. With a threshold denoiser and a level from 1 on, every call returns, and every item of the composed array is finite and differs from the array's by at most a stated bound in the threshold, the codec's loss and float rounding.", "quantifier": "all arrays of finite bounded floats (1D of any layout, 2D contiguous), parameters, buffers reached by any history, thresholds, levels, codecs with bounded loss, legacy parsers", "why_tests_cant": "all arrays, levels and codec behaviours", "anchors": ["python/src/wavelet_buffer.cc:serialize,parse,__eq__,decompose,compose", "python/src/wavelet_buffer/wavelet_buffer.py"]}
{"id": "C122", "title": "Pictures turned about their diagonal", "statement": "With exact arithmetic rows and columns are treated alike. Parameters with width and height exchanged are accepted if the original ones are. Decompose of transposed pictures under them gives the transposed subbands, the first two detail subbands of each step exchanged, with any denoiser that treats a matrix and its transpose alike (null and threshold do). Compose of such subbands, whatever they hold, gives the transposed pictures at every scale factor.", "quantifier": "all accepted 2D parameters (padded sides included), wavelets, pictures, buffers reached by any history, such denoisers, scale factors", "why_tests_cant": "all pictures and shapes", "anchors": ["sources/wavelet.cc:dwt,idwt,dwt2,idwt2", "sources/wavelet_utils.cc:DecomposeImpl,ComposeImpl", "sources/wavelet_buffer.cc:WaveletBuffer::Decompose,Compose", "wavelet_buffer/denoise_algorithms.h:ThresholdAbsDenoiseAlgorithm"]}
{"id": "C123", "title": "Signals moved round", "statement": "Sides that are multiples of 2^steps: if a signal is moved periodically by 2^steps times (u,v), Decompose without denoising gives the subbands of step s moved by 2^(steps-1-s) times (u,v) and the approximation moved by (u,v), and Compose of subbands moved that way, whatever they hold, gives signals moved along at every scale factor, with exact arithmetic, for every wavelet. For one-dimensional signals this holds bit for bit in any arithmetic, floats with rounding, infinities and NaNs included.", "quantifier": "all accepted unpadded parameters, wavelets, shifts, signals, buffers reached by any history, scale factors; 1D: any arithmetic", "why_tests_cant": "all signals and shifts", "anchors": ["sources/wavelet.cc:dwt,idwt,dwt2,idwt2", "sources/wavelet_utils.cc:DecomposeImpl,ComposeImpl", "sources/wavelet_buffer.cc:WaveletBuffer::Decompose,Compose"]}
{"id": "C124", "title": "Mirrored signals, DB1", "statement": "DB1 and sides that are multiples of 2^steps, exact arithmetic: Decompose without denoising of a signal mirrored up-down or left-right gives the mirrored subbands, negated where they hold differences across the mirror; Compose of such subbands, whatever they hold, gives the mirrored signals at every scale factor.", "quantifier": "all accepted unpadded DB1 parameters, signals, buffers reached by any history, both mirrors, scale factors", "why_tests_cant": "all signals", "anchors": ["sources/wavelet.cc:dwt,idwt,dwt2,idwt2", "sources/wavelet_utils.cc:DecomposeImpl,ComposeImpl", "sources/wavelet_buffer.cc:WaveletBuffer::Decompose,Compose"]}
{"id": "C125", "title": "Which bytes are an uncompressed blob", "statement": "After a version 3 header with compression 0 Parse returns the buffer b for exactly those byte strings that hold the subbands of b one after the other (tag, rows, columns, a count not larger than rows times columns, the values), whatever follows. Such a buffer can be serialized again, to a blob as long as the bytes read, which is read as the same buffer; if all counts are right it is the very bytes read, so each buffer has one blob of that kind. It is not true that different blobs give different buffers: the count is checked but not used. Blanks before a 3 never give a buffer; but a version 2 blob of a 2D buffer whose version byte was overwritten by a blank is still read.", "quantifier": "all byte strings, accepted parameters, codecs", "why_tests_cant": "all byte strings", "anchors": ["sources/wavelet_buffer.cc:WaveletBuffer::Parse,Serialize", "sources/wavelet_buffer_serializer.cc:Parse,Serialize", "wavelet_buffer/wavelet_parameters.h:deserialize"]}
{"id": "C126", "title": "Distance is the mean squared difference of the two signals, for every wavelet", "statement": "Two signals are decomposed (with the null denoiser) into two buffers with the same parameters. In exact arithmetic the square root of Distance of the buffers is the root of the mean squared difference of the signals (each padded, by repeating its edge, to the size the transform works on; mean over the declared number of samples) to within 7e-8 of it, whatever the wavelet, the number of steps and the shape. In single precision the value returned is, up to the rounding of its own sums (C104), the square of a number that differs from that root by at most 7e-8 of it plus the rounding of the two decompositions, at most 38e-7 of the root mean square of the signal per step and dimension.", "quantifier": "all parameters Decompose accepts with positive sides, all pairs of signals of the declared shape, all buffers reachable by API calls; in single precision all finite signals within range and all orders of summation", "why_tests_cant": "holds for every pair of signals, wavelet and shape; the tests compute one distance of two small buffers", "anchors": ["sources/wavelet_utils.cc:Distance", "sources/wavelet_buffer.cc:WaveletBuffer::Decompose"]}
{"id": "C127", "title": "The denoisers choose the best approximation", "statement": "SimpleDenoiseAlgorithm(level) on n values returns the nearest array (in squared difference) among all arrays of that size with at most k nonzero values, where k is n less the whole part of n*level and at least one; applying it again changes nothing. With DB1 and sides that are multiples of 2^steps, the signal composed after Decompose with this denoiser is nearest to the original among all signals whose detail subbands have at most that many nonzero values; with ThresholdAbsDenoiseAlgorithm(a, b) no signal has a smaller sum of squared error and cost, when a nonzero detail value of step s costs (a s + b)^2. In exact arithmetic.", "quantifier": "all data and levels in [0, 1], all std::nth_element implementations within their contract, all signals of the declared shape (as input and as competitor), all numbers of steps and channels", "why_tests_cant": "quantifies over all competitors; the tests check which values of one small array are kept", "anchors": ["wavelet_buffer/denoise_algorithms.h:SimpleDenoiseAlgorithm::Denoise,ThresholdAbsDenoiseAlgorithm::Denoise", "sources/wavelet_buffer.cc:WaveletBuffer::Decompose,Compose"]}
{"id": "C128", "title": "What a coefficient depends on and what it changes", "statement": "A coefficient stored by Decompose without denoising or with ThresholdAbsDenoiseAlgorithm depends only on the samples of the padded signal it spans: those that follow sample 2^d c along each side, 2^d of them for DB1, d being the number of steps that led to its subband. A sample composed at scale factor k depends only on the coefficients of the steps from k on that span it. So a coefficient set to another value, NaN included, changes only the samples it spans, in its channel, and none where its step is left out; a NaN or infinite sample spoils only the coefficients that span it. Bit for bit, in any arithmetic.", "quantifier": "all pairs of signals, subbands and buffers of one set of parameters, all wavelets, scale factors and arithmetics (floats with infinities and NaNs included), all earlier contents of the buffers", "why_tests_cant": "quantifies over pairs of inputs that agree on part of the samples, for every position; the tests compare whole signals with a tolerance", "anchors": ["sources/wavelet.cc:dwt,idwt,dwt2s,idwt2s", "sources/wavelet_buffer.cc:WaveletBuffer::Decompose,Compose", "wavelet_buffer/denoise_algorithms.h:ThresholdAbsDenoiseAlgorithm::Denoise"]}
{"id": "C129", "title": "A signal decomposed and composed many times drifts slowly", "statement": "A signal decomposed without denoising and composed at scale factor 0, n times in a row into the same buffer: every call succeeds, and no sample ends further from the original than n times the error bound of a single cycle, times (1+r)^n where r is the relative error bound of one cycle (in single precision as long as the bound stays within the range up to 2^46). An 8-bit picture stored as such after every cycle loses at most one level per cycle and gains none, if its steps keep levels (C95). But one cycle does not settle it: a white picture of 2 x 2 goes 255, 254, 253.", "quantifier": "all accepted parameters, buffers, signals and numbers of cycles n; all arithmetics with bounded relative error, and single precision", "why_tests_cant": "the number of cycles and the signals are unbounded; the tests do one cycle with a tolerance", "anchors": ["sources/wavelet_buffer.cc:WaveletBuffer::Decompose,Compose", "sources/wavelet.cc:dwt,idwt,dwt2s,idwt2s", "sources/img/jpeg_codecs.cc"]}
{"id": "C130", "title": "An exception in the middle of a Decompose: a denoiser that throws, memory that runs out", "statement": "Decompose writes the subbands of the buffer one after the other: channel by channel, the details step by step, each after its Denoise call, then the approximation. If write number k does not happen because Denoise throws (a 1D answer of another length counts as throwing, a 2D one does not) or because memory runs out, the exception leaves Decompose and the buffer keeps its parameters and its number of channels and subbands. The first k subbands are new: details hold what Denoise answered, approximations are those of the signal. All others are the ones the buffer held before. If every write happens, Decompose returns true. A signal that Decompose refuses is refused before any Denoise call, with the buffer unchanged. The same holds through a view, for the channels of the view, with the channels outside it untouched; Decompose of a vector behaves as a view of channel 0. The same holds for importing a picture into a WaveletImage; a codec that throws, or an import that returns another status than kOk, leaves the buffer unchanged. The next Decompose leaves no trace of the exception, nor of any number of exceptions before it. A buffer that held a decomposed signal can still be composed at every scale factor when the answers kept the shapes: channels before that of write k come out as from a completed Decompose, channels after it come out as before. So Decompose is not all or nothing: a two-channel signal may compose to the new first channel beside the old second one.", "quantifier": "all accepted parameters, reachable buffers and well-shaped signals in any arithmetic; all denoisers, whose answers may depend on the number of calls made so far; all crash points k: any Denoise call, and any approximation whose copy finds no memory", "why_tests_cant": "the crash point ranges over all writes of all decompositions, and the state left behind over all buffer histories; the tests use denoisers that do not throw and do not run out of memory", "anchors": ["sources/wavelet_utils.cc:DecomposeImpl,CalculateOneSideStep1D,CalculateOneSideStep2D", "sources/wavelet_buffer.cc:WaveletBuffer::Decompose", "sources/wavelet_buffer_view.cc:WaveletBufferView::Decompose", "wavelet_buffer/denoise_algorithms.h:DenoiseAlgorithm", "sources/img/wavelet_image.cc:WaveletImage::ImportFromString,ImportFromFile"]}
