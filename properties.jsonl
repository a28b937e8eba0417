{"id": "C01", "title": "Serialize/deserialize round-trip", "statement": "For every supported type (u8,u16,i16,u32,u64,usize,Latin-1 char,pairs,slices/Vec,fixed arrays,Rgb,signed colour,colour+position,Huffman decoder tree, zip-back symbol) deserializing the serialized bytes of a value followed by any further bytes returns that value and leaves exactly the further bytes unread.", "quantifier": "all values of each type, all trailing byte streams, nested arbitrarily (pairs of slices of ...)", "why_tests_cant": "value spaces are 2^64-sized or unbounded (lists, trees); tests sample a few literals", "anchors": ["src/ser.rs: Serialize, Deserialize", "src/huf.rs: BinTrie", "src/zip/back.rs: Symbol", "src/codec/clusterc.rs: ColorPos", "src/codec/hilbertc.rs: SignedColor"]}
{"id": "C02", "title": "Serialized form is canonical", "statement": "If deserialization of a byte stream succeeds with value v, then the bytes it consumed are exactly the serialization of v: no two byte strings are accepted for one value.", "quantifier": "all byte streams, all supported types", "why_tests_cant": "quantifies over every possible (including malformed) byte stream", "anchors": ["src/ser.rs: Deserialize", "src/huf.rs: BinTrie::deserialize"]}
{"id": "C03", "title": "Truncated values are rejected, not invented", "statement": "Deserializing any strict prefix of a value's serialization returns None; it never panics and never returns a value (zip-back symbols excepted, see C28).", "quantifier": "all values, all truncation points", "why_tests_cant": "every value times every cut point", "anchors": ["src/ser.rs: Deserialize"]}
{"id": "C04", "title": "Value streams survive the byte stream", "statement": "The byte iterator made from a sequence of values yields exactly the concatenation of their serializations and then ends; re-reading it as a stream of values yields exactly the original values and then ends.", "quantifier": "all finite value sequences, including values whose serialization is empty for the first half", "why_tests_cant": "unbounded sequences and pull patterns", "anchors": ["src/ser.rs: SerStream, deser_stream"]}
{"id": "C05", "title": "Write failures: exact prefix and error", "statement": "If the output accepts only k bytes, serializing a value returns Ok iff k is at least the serialized size, otherwise Err; in both cases the bytes accepted are exactly the first min(k,size) bytes of the full serialization. Characters above U+00FF give Err and write nothing for that character.", "quantifier": "all values, all failure points k", "why_tests_cant": "every crash point of the writer for every value", "anchors": ["src/ser.rs: Serialize", "src/ser.rs: char"]}
{"id": "C06", "title": "Bit order round-trip within a byte", "statement": "For both bit orders, packing the 8 bits read from a byte gives the byte back, reading the 8 bits of a packed byte gives the bits back, packing anything other than 8 bits is refused, and bit i is the one the documented layout says.", "quantifier": "all bytes, all 8-bit sequences, both orders", "why_tests_cant": "tests check one byte; claim is for all", "anchors": ["src/bit.rs: nth, bit_array, byte_from_slice, push_bit, bit_mask"]}
{"id": "C07", "title": "Bit writer emits exactly the bits it was given", "statement": "For the MSB-first order, after any sequence of single-bit, whole-byte and bit-array writes followed by the final flush, reading the output bytes as bits yields exactly the concatenation of everything written, followed by fewer than 8 zero bits.", "quantifier": "all interleavings of the three write operations, any length", "why_tests_cant": "unbounded operation histories with carried-over partial bytes", "anchors": ["src/bit.rs: IoBitWriter, WriteBit, bit_reader"]}
{"id": "C08", "title": "Bit arrays preserve their bits and length", "statement": "Building a bit array from a bit slice records its exact length, and writing it to an MSB-first bit writer at any alignment appends exactly that slice (LSB-first: see C09).", "quantifier": "all bit slices, all writer alignments", "why_tests_cant": "unbounded slices at every alignment", "anchors": ["src/bit.rs: BitArray::from_slice, BitArray::len, WriteBit::write_arr"]}
{"id": "C09", "title": "LSB-first writer: where the order guarantee stops", "statement": "With LSB-first order, any mixture of single-bit, whole-byte and bit-array writes whose total is a multiple of 8 reads back exactly if every whole byte (also inside a bit array) starts on a byte boundary, and aborts if one does not; and a final flush with a partial byte does NOT read back the written bits (the padding shifts the wrong way).", "quantifier": "all bit sequences; a witness for the failure", "why_tests_cant": "needs the universal half for all sequences and a counterexample outside the tested order", "anchors": ["src/bit.rs: IoBitWriter::pad_and_flush, write_byte"]}
{"id": "C10", "title": "Frequency table is exact", "statement": "Counting a sequence gives a table whose keys are exactly the distinct items and whose count for each item is its number of occurrences; the counts sum to the sequence length.", "quantifier": "all finite sequences over any type with decidable equality", "why_tests_cant": "unbounded sequences", "anchors": ["src/utils.rs: count_freqs"]}
{"id": "C11", "title": "Huffman whole-stream round-trip", "statement": "For every non-empty sequence, for every hash-map iteration order and every tie-breaking of the priority queue, decoding the Huffman output yields a stream that starts with exactly the original sequence.", "quantifier": "all non-empty sequences, all hash orders, all heap tie-breaks", "why_tests_cant": "the hash order and heap order are random/implementation-defined; inputs unbounded", "anchors": ["src/huf.rs: encode_all, decode_all, build, DecStream"]}
{"id": "C12", "title": "Huffman code is a complete prefix code", "statement": "Every symbol of the input has a code, no code is a prefix of another symbol's code, the code lengths satisfy Kraft's equality, and decoding a code followed by any bits returns its symbol leaving those bits.", "quantifier": "all frequency tables, hash orders and tie-breaks", "why_tests_cant": "unbounded alphabets; tie-breaks not controllable by tests", "anchors": ["src/huf.rs: build, Enc, Dec, BinTrie, BinTrieIter"]}
{"id": "C13", "title": "Huffman code is optimal", "statement": "The total number of payload bits for the input is at most that of any other binary prefix code tree for the same symbols.", "quantifier": "all frequency tables, tie-breaks, and all competing code trees", "why_tests_cant": "quantifies over all alternative codes", "anchors": ["src/huf.rs: build"]}
{"id": "C14", "title": "Huffman abort conditions", "statement": "Encoding an empty sequence aborts; encoding a non-empty sequence to an output that never fails never aborts and never errors.", "quantifier": "all sequences", "why_tests_cant": "needs every internal unwrap/panic unreachable for all inputs", "anchors": ["src/huf.rs: build, encode_all, BinTrieIter::next"]}
{"id": "C15", "title": "Huffman behaviour when the output fails", "statement": "If the output accepts only k bytes: k inside the header gives an Err return; k inside the payload before the last partial byte aborts the process instead of returning the error; k at the last padding byte gives Err. The bytes written are always the first min(k,total) bytes of the full output.", "quantifier": "all sequences, all failure points", "why_tests_cant": "every crash point", "anchors": ["src/huf.rs: encode_all, Enc::encode"]}
{"id": "C16", "title": "Huffman output size", "statement": "The output is the serialized tree (one tag byte per node, 2n-1 nodes for n distinct symbols, plus the symbols) followed by exactly ceil(B/8) bytes where B is the sum over symbols of occurrences times code length; with one distinct symbol the payload is empty and decoding never ends.", "quantifier": "all non-empty sequences", "why_tests_cant": "unbounded inputs", "anchors": ["src/huf.rs: encode_all, BinTrie::serialize"]}
{"id": "C17", "title": "zip-dict round-trip", "statement": "Decompressing the compressed form of any byte sequence gives back exactly that sequence and then ends, also long after the 65535-symbol dictionary is full; neither side aborts.", "quantifier": "all byte sequences of any length", "why_tests_cant": "dictionary-full behaviour and unbounded inputs are out of reach for tests", "anchors": ["src/zip/dict.rs: zip_dict_encode, zip_dict_decode"]}
{"id": "C18", "title": "zip-dict trie is a finite map", "statement": "After any sequence of insertions of non-empty byte strings, a lookup descent returns the value most recently inserted for exactly that string and nothing for others, and insertion returns the previous value, regardless of the internal switch from sparse to full nodes; the descent can continue exactly when a longer inserted string exists.", "quantifier": "all insertion histories, all keys", "why_tests_cant": "the switch at 65 entries and overwrites over unbounded histories", "anchors": ["src/zip/dict.rs: TrieMap, Node, Content, Descent"]}
{"id": "C19", "title": "zip-dict is greedy longest-match", "statement": "Every emitted symbol stands for the longest dictionary string that is a prefix of the remaining input, and the dictionary never gets the same string twice.", "quantifier": "all inputs, all positions", "why_tests_cant": "unbounded inputs", "anchors": ["src/zip/dict.rs: DictEncoder::find_symbol, next_pair"]}
{"id": "C20", "title": "zip-dict output size bound", "statement": "The compressed size is a multiple of 4, is 0 iff the input is empty, and is at most 4*ceil(n/2) bytes for n input bytes.", "quantifier": "all inputs", "why_tests_cant": "unbounded inputs", "anchors": ["src/zip/dict.rs: zip_dict_encode"]}
{"id": "C21", "title": "zip-dict decoder on foreign data", "statement": "On an arbitrary byte stream the decompressor either yields a decoded sequence or aborts, and it aborts exactly when a pair is cut after its first symbol or a symbol is not yet defined; it does not report malformed data as an error. A trailing single byte is silently ignored.", "quantifier": "all byte streams", "why_tests_cant": "every malformed stream", "anchors": ["src/zip/dict.rs: DictDecoder::next, decode"]}
{"id": "C22", "title": "zip-back round-trip", "statement": "For every byte sequence for which compression does not abort, decompression returns exactly that sequence and then ends, including after the 65535-byte history wraps.", "quantifier": "all byte sequences of any length", "why_tests_cant": "history wrap-around and unbounded inputs", "anchors": ["src/zip/back.rs: zip_back_encode, zip_back_decode"]}
{"id": "C23", "title": "zip-back abort boundary", "statement": "Compression aborts exactly when some literal run or repetition it wants to emit is longer than 32767 bytes; it never aborts on inputs of at most 32767 bytes, but there are inputs of 32768 bytes on which it aborts, and it aborts on every constant input of at least 65536 bytes.", "quantifier": "all byte sequences; all constant sequences", "why_tests_cant": "failing inputs are larger than any unit test and the safe half is universal", "anchors": ["src/zip/back.rs: Symbol::compress_len, Encoder::next_symbols"]}
{"id": "C24", "title": "zip-back output does not depend on buffer capacities", "statement": "The compressed output is a function of the input alone: it is the same for every capacity the internal repetition buffer may have or grow to (at least 6).", "quantifier": "all inputs, all capacity sequences of the allocator", "why_tests_cant": "allocator growth policy is outside test control", "anchors": ["src/zip/back.rs: Encoder::next_repetition"]}
{"id": "C25", "title": "zip-back history is the last 65535 bytes", "statement": "After any sequence of writes the ring buffer contains exactly the last min(n,65535) bytes in order; position membership, look-back distances and iteration from a position agree with that view; look-back distances fit 16 bits.", "quantifier": "all write histories", "why_tests_cant": "unbounded histories across wrap-around", "anchors": ["src/zip/back.rs: RingBuffer"]}
{"id": "C26", "title": "zip-back index is sound and complete", "statement": "After any history the index offers, for a 6-byte key, exactly the window positions at which those 6 bytes occur, each once in increasing order.", "quantifier": "all histories, all keys", "why_tests_cant": "two-generation index maintenance across wrap-arounds over unbounded histories", "anchors": ["src/zip/back.rs: Index, IndexedHistory"]}
{"id": "C27", "title": "zip-back repetitions are longest matches", "statement": "A repetition is emitted only with length at least 6, and it is the longest match of the remaining input against the history window (the earliest such position).", "quantifier": "all inputs and positions", "why_tests_cant": "unbounded inputs", "anchors": ["src/zip/back.rs: buffered_repetition, next_repetition, next_symbols"]}
{"id": "C28", "title": "zip-back symbol coding", "statement": "Literal runs and look-backs with lengths up to 32767 and distances up to 65535 are coded unambiguously; longer lengths abort instead of being mis-coded; a truncated literal run aborts the reader.", "quantifier": "all symbols, all byte streams", "why_tests_cant": "all lengths/distances", "anchors": ["src/zip/back.rs: Symbol"]}
{"id": "C29", "title": "zip-back on images: literal runs stay short", "statement": "When compressing the byte form of any image, no literal run exceeds 2048 bytes, so the only way compression of an image can abort is a repetition longer than 32767 bytes; images whose byte form has at most 32767 bytes never abort, and large one-colour images do.", "quantifier": "all images", "why_tests_cant": "number-theoretic argument over all images (period-11 layout against doubling probe offsets)", "anchors": ["src/codec/zipc.rs: Zip::encode", "src/zip/back.rs: extend_explicit"]}
{"id": "C30", "title": "Run-length coding is exact", "statement": "Exact run-length coding emits counts between 1 and 255, expanding them gives back the input sequence, and two adjacent runs have equal values only if the first has count 255.", "quantifier": "all sequences", "why_tests_cant": "unbounded sequences; the 255 boundary at every position", "anchors": ["src/codec/hilbertc.rs: AbstractRle, rle_exact, RleDecoder"]}
{"id": "C31", "title": "Hufman codec is lossless", "statement": "Decoding the Hufman-coded form of any non-empty image gives an image with the same dimensions and the same RGB colour at every position, for all hash orders and tie-breaks.", "quantifier": "all non-empty images", "why_tests_cant": "all images, random hash orders", "anchors": ["src/codec/hufc.rs: Hufman"]}
{"id": "C32", "title": "zip codecs are lossless", "statement": "zip(dict): decode(encode(img)) has the same dimensions and RGB colours for every image. zip(back): the same whenever encoding does not abort.", "quantifier": "all images", "why_tests_cant": "all images", "anchors": ["src/codec/zipc.rs: Zip"]}
{"id": "C33", "title": "hilbert(rle) and hilbert(zip) are lossless", "statement": "For any traversal that visits every pixel exactly once, decoding gives the same dimensions and RGB colours; and a traversal that skips a pixel makes losslessness fail.", "quantifier": "all images, all bijective traversals", "why_tests_cant": "all images; traversal crate is external", "anchors": ["src/codec/hilbertc.rs: Hilbert", "src/hilbert.rs: linearize, iter"]}
{"id": "C34", "title": "delta codec is lossless", "statement": "For any bijective traversal and non-empty image, decoding the delta form gives the same dimensions and RGB colours; the intermediate differences stay within [-255,255] and decoding never aborts on encoder output.", "quantifier": "all non-empty images, all bijective traversals, hash orders, tie-breaks", "why_tests_cant": "all images", "anchors": ["src/codec/hilbertc.rs: Delta, DiffStream, FromDiff, SignedColor"]}
{"id": "C35", "title": "What 'lossless' does not cover", "statement": "Every decoded image is opaque 8-bit RGB: for each lossless codec the alpha channel is replaced by 255, so images with transparency are not reproduced.", "quantifier": "all images; witness", "why_tests_cant": "needs all images", "anchors": ["src/codec/hufc.rs", "src/codec/zipc.rs", "src/codec/hilbertc.rs"]}
{"id": "C36", "title": "Approximate run-length coding keeps the pixel count and is a rounded mean", "statement": "hilbert(rle(d)) writes runs whose counts (1..255) sum to the number of pixels; each run's colour is the per-channel mean of the run's pixels rounded half away from zero computed in f64; the range assertion never fires; decoding gives an image of the same dimensions.", "quantifier": "all images, all f64 d (including NaN, negative, infinite)", "why_tests_cant": "floating-point rounding over all runs and thresholds", "anchors": ["src/codec/hilbertc.rs: Approx, RunningAvg, rle_approx"]}
{"id": "C37", "title": "Approximate run-length coding does not bound the error by d", "statement": "It is not true that every decoded pixel is within distance d of the original; a concrete image exceeds it.", "quantifier": "witness image", "why_tests_cant": "needs a drift counterexample and exact f64 semantics", "anchors": ["src/codec/hilbertc.rs: Approx::accept"]}
{"id": "C38", "title": "Truncated compressed images", "statement": "Cutting the compressed stream inside the eight dimension bytes makes every codec return None. A Hufman stream cut anywhere returns None. A delta stream cut inside the tree aborts; cut in the payload, the decoder returns an image of full dimensions holding exactly the pixels whose codes are complete, black elsewhere. The expectation that hilbert(rle) and hilbert(zip) always return such an image too is false: some cuts abort (a refuted theorem; the exact outcomes are C54).", "quantifier": "all images and cut points", "why_tests_cant": "all cut points", "anchors": ["src/codec/hufc.rs: decode", "src/codec/hilbertc.rs: decode"]}
{"id": "C39", "title": "Clustering keeps every point exactly once", "statement": "When clustering returns, the clusters together contain exactly the input points (as a multiset), the number of clusters and of centroids equals the requested number, whatever the random choices, distances and sort order.", "quantifier": "all point types/distances/means, all inputs, all random tapes, any number of iterations", "why_tests_cant": "iterative algorithm with randomness", "anchors": ["src/kmeans.rs: cluster, assign_points, init_assignment"]}
{"id": "C40", "title": "Clustering preconditions", "statement": "Clustering aborts at once when asked for 0 clusters or for more clusters than points; otherwise the initial split gives that many non-empty chunks of the stated sizes.", "quantifier": "all inputs", "why_tests_cant": "all sizes", "anchors": ["src/kmeans.rs: init_assignment, init_centroids"]}
{"id": "C41", "title": "Neighbour lists stay well-formed and maintenance terminates", "statement": "For every cluster the neighbour list always contains distinct valid other cluster ids in non-decreasing distance order, with length at most k-1 and never fewer than min(k-1, floor(sqrt k)) after the first iteration's shrink rule; the grow/shrink loop of one maintenance pass runs at most twice.", "quantifier": "all cluster states reachable by any history", "why_tests_cant": "history-dependent watermark adaptation", "anchors": ["src/kmeans.rs: NeighbouringCentroids, compute_neighbours"]}
{"id": "C42", "title": "Assignment picks a nearest centroid when the neighbour lists are complete", "statement": "With complete neighbour lists and colour points, each pass assigns every point to a centroid at minimal f64 distance (the two early-stop tests never exclude a strictly closer centroid).", "quantifier": "all colour points, all centroids", "why_tests_cant": "relies on triangle inequality surviving f64 rounding for all inputs", "anchors": ["src/kmeans.rs: assign_points", "src/geom.rs: Distance for Rgb"]}
{"id": "C43", "title": "cluster-colors output", "statement": "Whenever encoding returns, the decoded image has the same dimensions, equal original colours stay equal, and at most n distinct colours are used, each the count-weighted mean (rounded down per channel) of the original colours mapped to it.", "quantifier": "all images, n, random tapes, hash orders", "why_tests_cant": "all images and random choices", "anchors": ["src/codec/clusterc.rs: ClusterColors, ColorCount"]}
{"id": "C44", "title": "voronoi output", "statement": "Whenever encoding returns, the stream decodes (overflow wrapping as in the release build, dimensions at most 46340) to an image of the same dimensions in which every pixel has the colour of a stored centroid nearest in the plane (the first one in case of ties); with overflow checks on, decoding aborts unless every centroid is at the bottom-right of every pixel.", "quantifier": "all images, n, random tapes", "why_tests_cant": "integer wrap-around and all pixels", "anchors": ["src/codec/clusterc.rs: VoronoiCluster, ColorPos"]}
{"id": "C45", "title": "Cluster means stay inside the data", "statement": "The mean of a non-empty set of colours or positions lies, per component, between the minimum and maximum of the inputs, is rounded down, and no integer conversion truncates; the mean of one point is that point.", "quantifier": "all non-empty point sets", "why_tests_cant": "all sets", "anchors": ["src/codec/clusterc.rs: ColorCount::mean, ColorPos::mean"]}
{"id": "C46", "title": "Function-call syntax: sound and complete on ASCII", "statement": "On ASCII text with nesting below 65536, parsing `name(arg,...)` succeeds exactly when the text is a non-empty name without ( ) , followed by a parenthesised comma-separated list of non-empty balanced arguments (or nothing), returns exactly these pieces, and never aborts. Deeper ASCII text is accepted only in release builds, and exactly if it begins like a call, some parenthesis makes 65536 open ones, and none of ( ) , comes after the first such; the name and the comma-terminated arguments before it are returned.", "quantifier": "all ASCII strings", "why_tests_cant": "all strings", "anchors": ["src/prs.rs: fun_call"]}
{"id": "C47", "title": "Function-call syntax: non-ASCII text", "statement": "Because character and byte positions are mixed, no text with a non-ASCII character is accepted, and a text aborts the parser exactly if it begins like a call and a character position around its name or one of its comma-terminated arguments, taken as a byte position, is inside a character; every other text that is not an ASCII call is rejected. Deeper texts: if the beginning up to the first parenthesis that makes 65536 open ones reads like a call, debug builds abort there; release builds abort only for a position inside a character before it, and otherwise accept the text exactly if none of ( ) , follows, ASCII or not, returning the bytes at the character positions of the name and of the arguments.", "quantifier": "all texts, both build profiles", "why_tests_cant": "outside the tested alphabet", "anchors": ["src/prs.rs: fun_call"]}
{"id": "C48", "title": "Alternatives: first success wins", "statement": "Trying a list of named parsers returns the result of the first that succeeds, runs no later one, and if all fail reports every failure once in order.", "quantifier": "all lists of parsers and inputs", "why_tests_cant": "all combinations", "anchors": ["src/prs.rs: ParseAlternatives"]}
{"id": "C49", "title": "Codec selection from the command line", "statement": "The codec argument is resolved in the order cluster-colors, voronoi, delta, hilbert, hufman, zip; each documented spelling selects the documented codec; cluster-colors/voronoi accept any text containing a match; `reduce-colors(n)` from the usage text is rejected; `hilbert(rle())` aborts. For every text, ASCII or not and of any nesting, and for every class of digits that is 0-9 within ASCII, the selected codec and whether the program aborts are decided: the leftmost number in a recognised place counts and must consist of ASCII digits, and calls are those that C46 and C47 describe.", "quantifier": "all argument strings / all numbers n", "why_tests_cant": "all strings; numbers unbounded", "anchors": ["src/codec.rs: gen_from_str_impl", "src/codec/*.rs: FromStr", "src/main.rs: usage"]}
{"id": "C50", "title": "Benchmark CSV under any schedule", "statement": "However the image tasks are interleaved, the CSV contains the header exactly once, before all records, iff at least one image succeeded, and exactly one record per successful image; a failing image adds nothing.", "quantifier": "all task sets, outcomes and schedules", "why_tests_cant": "all interleavings", "anchors": ["src/bench.rs: measure_all"]}
{"id": "C51", "title": "Benchmark error metric", "statement": "For images of equal non-empty dimensions with fewer than 2^32 pixels the reported error is 0 iff every RGB pixel is equal; images of different shape but the same pixel sequence are also reported as error 0.", "quantifier": "all image pairs", "why_tests_cant": "f64 summation over all images", "anchors": ["src/bench.rs: compute_error", "src/geom.rs: Distance for Rgb"]}
{"id": "C52", "title": "Benchmark compression ratio", "statement": "The reported ratio is compressed bytes divided by 24 times the pixel count (mod 2^32), i.e. one eighth of the ratio to the 3-bytes-per-pixel raw size.", "quantifier": "all image sizes", "why_tests_cant": "all sizes incl. overflow", "anchors": ["src/bench.rs: measure_all"]}
{"id": "C53", "title": "Square linearizations", "statement": "The small-square traversal never reads outside the image but is not always the largest power-of-two square (a 4x4 image gives 2x2, a 1x1 image nothing); the large-square traversal visits every pixel exactly once, given a bijective square scan.", "quantifier": "all dimensions below 2^31", "why_tests_cant": "all dimensions", "anchors": ["src/hilbert.rs: linearize_small, linearize_large"]}
{"id": "C54", "title": "Exact outcome of every truncated image", "statement": "For every cut point of the output of hilbert(rle(d)), hilbert(zip), zip(dict) and zip(back) the decoder's outcome (None, abort, or an image that keeps exactly the pixels whose runs or codes are complete and is black elsewhere) is determined by the position of the cut.", "quantifier": "all images, all cut points, all byte sources", "why_tests_cant": "every image times every cut point", "anchors": ["src/codec/hilbertc.rs: decode", "src/codec/zipc.rs: decode", "src/zip/dict.rs", "src/zip/back.rs"]}
{"id": "C55", "title": "Clustering can end away from the nearest centroids", "statement": "The final assignment need not be the nearest one: there are inputs on which clustering ends after its first pass with a point closer to another centroid, and inputs on which it reaches a state that no further pass changes although a point is strictly closer to another centroid (its neighbour list was cut short).", "quantifier": "existence of inputs (refutation of: every point ends in a nearest cluster)", "why_tests_cant": "needs specially found inputs and a proof that every later pass is idle", "anchors": ["src/kmeans.rs: cluster, assign_points, resize"]}
{"id": "C56", "title": "Lossless codecs pass the benchmark's own check", "statement": "For every codec that declares itself lossless and every non-empty image (opaque or not) that it encodes, the benchmark's error for the decoded image is exactly zero, so the image gets a result row and is never reported as a mismatch.", "quantifier": "all images, all codecs with is_lossless, all oracles, both build profiles", "why_tests_cant": "every image and every codec; tests use a handful of images", "anchors": ["src/bench.rs: measure_all, compute_error", "src/codec.rs: is_lossless"]}
{"id": "C57", "title": "Command line dispatch", "statement": "The first argument alone decides what runs: --special=hilbert writes the traversals, --codec=<codec> benchmarks the selected codec on the remaining arguments, and every other first argument (or none) aborts.", "quantifier": "all argument lists", "why_tests_cant": "the set of argument strings is infinite", "anchors": ["src/main.rs: main, try_special, try_bench, separate_args"]}
{"id": "C58", "title": "The traversal dump holds every pixel once", "statement": "With --special=hilbert the rect table has one row per pixel, and its rows are a permutation of the image's colours; the column headed blue holds the green channel and the column headed green the blue one.", "quantifier": "all images and all traversals that visit every position once", "why_tests_cant": "every image and traversal", "anchors": ["src/main.rs: try_special", "src/hilbert.rs: linearize_rect"]}
{"id": "C59", "title": "Output file names", "statement": "Every output file lies directly inside output/ and is named after the input's file name with its last extension replaced (hidden files and names without a dot keep their whole name); paths without a file name abort; inputs that differ only in directory or extension are given the same output file.", "quantifier": "all paths and extensions", "why_tests_cant": "the set of paths is infinite", "anchors": ["src/main.rs: under_output"]}
{"id": "C60", "title": "Benchmark tables of different codecs go to different files", "statement": "The name of the benchmark's table determines the codec and its parameter (up to the sign of a zero tolerance), provided that distinct f64 values print differently.", "quantifier": "all pairs of codecs with all parameters", "why_tests_cant": "infinitely many parameters", "anchors": ["src/codec.rs: name", "src/bench.rs: csv_writer"]}
{"id": "C61", "title": "When clustering ends", "statement": "cluster-colors with one cluster ends after one pass and gives every pixel the mean colour (rounded down per channel). With two clusters it need not end: for a 129-pixel image and one order of the colour table two clusters exchange colours for ever, whatever the sort and the random choices: a release build never returns, and a debug build makes exactly 2^31 passes and then aborts because the i32 that counts them overflows.", "quantifier": "one cluster: every image, order, sort and random choice; never ending: one image, every sort, every random choice, every number of passes, both profiles", "why_tests_cant": "a test cannot observe an infinite run, and the loop shows only for few orders of the hash table", "anchors": ["src/kmeans.rs: cluster, assign_points, update_centroids", "src/codec/clusterc.rs: ClusterColors::encode, ColorCount::mean"]}
{"id": "C62", "title": "As many clusters as colours is lossless", "statement": "cluster-colors(n) on an image with exactly n different colours ends after one pass without any random choice, and decodes to the original image (made opaque).", "quantifier": "every non-empty image below 2^32 pixels, every hash order, sort, heap and random choice", "why_tests_cant": "infinitely many images; hash order and sort are not reproducible", "anchors": ["src/kmeans.rs: init_assignment, assign_points", "src/codec/clusterc.rs: ClusterColors::encode, decode"]}
{"id": "C63", "title": "How cluster-colors can abort", "statement": "For 1 <= n <= number of colours, an encoding by cluster-colors(n) never fails except at the final check, which requires exactly floor(99n/100) non-empty clusters, and, in a debug build, in pass 2^31 after 2^31 - 1 passes that all moved a point; so one or two clusters never fail the check. The claim that enough colours never abort is false: a 17-pixel image with seven colours aborts with four clusters for some random choices.", "quantifier": "all images below 2^32 pixels, all n up to the number of colours, all sorts, hash orders and random choices", "why_tests_cant": "depends on random choices made in rare runs; f64 rounding of 0.99 * n", "anchors": ["src/kmeans.rs: check_enough_active_clusters, compute_centroids, cluster"]}
{"id": "C64", "title": "zip-back decoder on arbitrary data", "statement": "For any sequence of fewer than 2^48 bytes the zip-back decoder delivers a determined output and then ends, in both build profiles: silently where a symbol header or distance is cut and at the first symbol that stands for no bytes (ignoring all that follows), by an abort at a cut literal or at a distance beyond the last 65535 bytes of output. It never reports malformed data.", "quantifier": "all byte sequences below 2^48 bytes, both profiles, every byte iterator", "why_tests_cant": "the set of malformed files is infinite, and wrapping arithmetic matters only in release builds", "anchors": ["src/zip/back.rs: Decoder::next, decode_next, RingBuffer::lookback_sequence, iter_starting"]}
{"id": "C65", "title": "Image decoders on arbitrary data", "statement": "Whatever bytes a decoder is given, an image it returns is well formed (one pixel per position, channels in range) and opaque, and all codecs but zip take its dimensions from the first 8 bytes; fewer than 8 bytes are refused; dimensions too large for memory abort. The claim that decoding never aborts is false for every codec: at most 8 bytes are enough.", "quantifier": "all byte sequences, all codecs, all environments (hash orders, curves, profiles, stack depths)", "why_tests_cant": "the set of malformed files is infinite", "anchors": ["src/codec.rs: AnyCodec::decode, create_image_buffer_standard", "src/codec/hufc.rs: decode", "src/codec/hilbertc.rs: decode", "src/codec/clusterc.rs: decode", "src/codec/zipc.rs: decode"]}
{"id": "C66", "title": "What the zip codecs accept", "statement": "A zip codec decodes data to an image exactly if the unpacked bytes start with the uncompressed form of that image; trailing bytes are ignored, even if unpacking them would abort. If unpacking ends silently, decoding aborts exactly when the dimensions are too large for memory; if unpacking aborts before the image is complete, so does decoding.", "quantifier": "all byte sequences (dict: with enough stack; back: below 2^48 bytes)", "why_tests_cant": "the set of files is infinite and laziness of the decoder is not visible in round trips", "anchors": ["src/codec/zipc.rs: decode, rebuild_image"]}
{"id": "C67", "title": "Dictionary trie statistics and destruction", "statement": "For every sequence of insertions into the dictionary's trie, print_stats reports: one node per proper beginning of a key (the empty one included); one child entry less than nodes; one value entry per distinct key; and as allocated entries, per node, the number of entries if it is at most 64 and 256 otherwise, so the densities lie between 65/256 and 1. After compressing a byte sequence the keys are exactly the dictionary, with min(65535, 256 + number of complete pairs) entries, and the printed child density is NaN exactly when the input has at most one byte. Dropping the trie frees every node exactly once, the root last, and no node has children left when it is freed, so freeing never recurses.", "quantifier": "forall insertion sequences of non-empty byte keys; forall byte sources", "why_tests_cant": "the number of tries is infinite; a node freed with its children overflows the stack only for very deep tries", "anchors": ["src/zip/dict.rs: print_stats, Drop for TrieMap, Content::upsert, zip_dict_encode"]}
{"id": "C68", "title": "Whole runs of the program", "statement": "A benchmark run leaves exactly one table, in the file named after the codec, with at most one record per path and each record describing the image at its path (read, encoded, decoded, size of the data, error); unless a task aborts, the paths without a record are exactly those whose image could not be read, encoded or decoded, or came back changed and could not be saved or should not have changed. With a lossless codec (with zip(back): on images of at most 2978 pixels), on readable non-empty images below 2^32/24 pixels, runs end, all succeed, and every path has a record with error zero. A dump run writes three files per path in order, and aborts if an image cannot be read.", "quantifier": "all argument lists, image sets, schedules, hash orders, heaps, curves, profiles", "why_tests_cant": "schedules, hash orders and image sets are unbounded", "anchors": ["src/main.rs: main, try_bench, try_special", "src/bench.rs: measure_all, csv_writer"]}
{"id": "C69", "title": "Makefile rules make their targets", "statement": "Every Makefile rule that runs the program selects the intended codec and leaves the new table in its target: for cluster-colors with every 64-bit number, for hilbert(rle(x)) with every distance x that prints as it was written, and for the six fixed rules. The claim is false for the voronoi rule: it never makes its target but overwrites the backup of the cluster-colors table of the same number.", "quantifier": "all numbers below 2^64, all distances, all previous states of the files", "why_tests_cant": "the file names are composed in the Makefile, the codec names in the program; nothing checks that they agree", "anchors": ["Makefile: rules", "src/codec.rs: from_str", "src/bench.rs: csv_writer"]}
{"id": "C70", "title": "Image encoders on failing outputs", "statement": "If the output accepts only k bytes, every image encoder succeeds exactly when k is at least the size of its data; otherwise the bytes accepted are exactly the first k bytes of the data, and the encoder returns an error, except that the Huffman-based codecs (Hufman, delta, cluster-colors) may abort instead, which they do for some image and k. If the output cannot be flushed, the Huffman-based codecs return an error after writing all data and the others do not notice.", "quantifier": "all codecs, images, environments and k", "why_tests_cant": "every byte position of every output is a possible failure point", "anchors": ["src/codec.rs: AnyCodec::encode", "src/codec/*.rs: encode", "src/huf.rs: encode_all", "src/bit.rs: pad_and_flush"]}
{"id": "C71", "title": "Sizes of compressed images", "statement": "For every image with k colours, hufman writes exactly 7 + 13k + ceil(B/8) bytes, B being the bits of a best prefix code, at most j per pixel if k <= 2^j; delta writes 7 + 8k + ceil(B/8) for the k distinct differences. hilbert(rle) writes 8 + 12r bytes for r runs of 1 to 255 pixels; without approximation no other way of cutting into runs is shorter, and if neighbours always differ the output is 12 bytes per pixel, four times the raw colours. zip(back) adds at most 2 bytes to its input and never shrinks it beyond 32767 to 4; zip(dict) and hilbert(zip) at most double theirs.", "quantifier": "all images, traversals, hash orders, heaps, byte sources", "why_tests_cant": "a size bound is a statement about every image; tests measure some files", "anchors": ["src/codec/hufc.rs: encode", "src/codec/hilbertc.rs: encode", "src/codec/zipc.rs: encode", "src/zip/back.rs: encode", "src/zip/dict.rs: encode"]}
{"id": "C72", "title": "Full-text matches and the unchecked access in the parser", "statement": "matches_fully with a pattern without groups, anchors or top-level alternatives succeeds exactly on the texts of the pattern and returns the whole text; with a group it never succeeds. With top-level alternatives it is not a full match: the first only has to begin the text and the last only to end it, so rle|zip matches rlex. The unsafe unwrap_err_unchecked in ParseAlternatives is only ever reached with an error list, and the assertions before it never fail, whatever the parsers do.", "quantifier": "all patterns, texts, chains of parsers", "why_tests_cant": "the patterns in use are fixed; the helper promises more than they exercise; undefined behaviour need not show in a test", "anchors": ["src/prs.rs: matches_fully, expect_name, then_try, into_success, stack_error"]}
{"id": "C73", "title": "What the Huffman and hilbert decoders accept", "statement": "Hufman (and cluster-colors) decodes data to an image exactly if the data is the dimensions, the serialized form of any tree, and then bits that start with codes of the tree for all pixels in order; everything after them is ignored. It aborts exactly for dimensions that do not fit in memory and reports all other data as an error. Reading the tree recurses, and n bytes of data can require a depth of more than n calls for every n. The delta and hilbert decoders report an error exactly for data of less than 8 bytes: otherwise the image has the colours given along the traversal and black for those missing if the data ends where a symbol, run or pixel would start or (delta, zip) is malformed there; all else aborts.", "quantifier": "all byte sequences, traversals that visit every position once, profiles", "why_tests_cant": "round trips only exercise files that the encoders write; the set of other files is infinite", "anchors": ["src/codec/hufc.rs: decode", "src/codec/hilbertc.rs: decode", "src/codec.rs: create_image_buffer_standard", "src/huf.rs: decode_all, Dec::deserialize"]}
{"id": "C74", "title": "What the voronoi decoder accepts", "statement": "The voronoi decoder returns an image exactly if the data is the dimensions, a count and that many coloured points (anything may follow), with at least one point if there are pixels; in debug builds also no point may lie left of or above any pixel and no squared distance may reach 2^32. Each pixel then has the colour of the first point with the least squared distance modulo 2^32, which in debug builds is the first nearest point. An error is reported exactly if the points are incomplete and the dimensions fit in memory.", "quantifier": "all byte sequences, both profiles", "why_tests_cant": "the set of files is infinite, and the wrap-around only shows at distances of 65536", "anchors": ["src/codec/clusterc.rs: VoronoiCluster decode, dist"]}
{"id": "C75", "title": "The diagrams", "statement": "The scripts draw the tables of all codecs and none of the other files that the program leaves in the output folder. The scatter plot has each series once, with one point per table in the order of the files; two tables share a series exactly if their codecs differ only in the number of clusters or in a non-zero distance. The box plot has each table whose mean error is zero exactly once, sorted by mean ratio. A benchmark table gets a box exactly if all its images came back with the same colours: no error is rounded away in a mean over less than 2^33 images. The ratio in the png table is computed to the same f64 as the benchmark's. A run in which no image could be read leaves a table on which both scripts abort.", "quantifier": "all sets of files, codecs, distances and their printed forms, orders of summation, images", "why_tests_cant": "the scripts only ever ran on the author's own results; rounding in a long sum is not visible in a plot", "anchors": ["scripts/cniic.py", "scripts/png.py", "scripts/diagrams/boxplot.py", "scripts/diagrams/error_vs_compression_plot.py", "src/bench.rs: measure_all"]}
{"id": "C76", "title": "Encoders write bytes and errors in the table are meaningful", "statement": "For every codec and every image within the limits, all that the encoder writes are bytes; whatever a decoder in any environment makes of them is a well-formed opaque image, of the same width and height as the original; the encoders without zip write the width and the height first; and the error in a record of the table is zero or between 2^-40 and 2^18, and zero exactly if each pixel present in both images has the same colour in both.", "quantifier": "all codecs (lossy ones included), images, hash orders, heaps, random choices, decoding environments", "why_tests_cant": "a codec that produced an ill-formed value would only do so for particular images and random choices", "anchors": ["src/codec.rs: AnyCodec", "src/bench.rs: compute_error, measure_one"]}
{"id": "C77", "title": "The colours that lossy codecs choose for groups of pixels", "statement": "Approximate run-length coding: no image with one colour on each of its runs has a smaller total squared error than the decoded image. cluster-colors: giving each colour of the decoded image any other colour reduces the total squared error by less than 3 per pixel; it can reduce it, because means are rounded down, so the palette is not always the best one. The means of both clustering codecs are within 3 per unit of weight (5 per point with positions) of the least possible total squared distance. In a clustering pass with full neighbour lists, no other assignment of the points to the same centroids has a smaller total squared distance, whatever the weights.", "quantifier": "all images, traversals, distances, clusterings, other images and other assignments", "why_tests_cant": "'no other image is better' quantifies over all images; tests compare with a few", "anchors": ["src/codec/hilbertc.rs: RunningAvg", "src/codec/clusterc.rs: mean, encode", "src/kmeans.rs: assign_points", "src/bench.rs: compute_error"]}
{"id": "C78", "title": "The distance of approximate run-length coding", "statement": "Distances strictly between 0 and 1 give the same bytes as coding without approximation, so nothing is lost; with distances from 442 on every run but the last has 255 pixels and the size is 8 + 12 * ceil(pixels / 255), whatever the colours. More generally a distance below the least distance between two different colours of the image has no effect; for grey images that is the root of 3. In between the distance is no monotone control: a larger one may give a larger file and a worse image, and twice the distance may give a better image at the same size.", "quantifier": "all images, traversals and distances", "why_tests_cant": "the thresholds come from floating-point means and distances of all possible runs; plots of a few distances look monotone", "anchors": ["src/codec/hilbertc.rs: RunningAvg, Approx, Rle", "README.md"]}
{"id": "C79", "title": "Which repetitions the zip codecs find", "statement": "zip-dict doubles what its newest code stands for: a pair of bytes repeated 2^k - 1 times becomes the two bytes and then each new code twice, as in README.md. zip-back writes its input as one literal unless some six bytes occur twice without overlap, so the worked example of README.md (which copies two bytes) is not what it does. It finds a repetition in every input of the form uuu with u of at least six bytes, but it can miss one in uu even if u has 129 bytes.", "quantifier": "all bytes, inputs, buffer capacities, iterators", "why_tests_cant": "a missed repetition still decodes correctly, so round trips cannot show it", "anchors": ["src/zip/dict.rs", "src/zip/back.rs: more_data, MIN_REP", "README.md"]}
{"id": "C80", "title": "The benchmark's image files", "statement": "The tasks of the benchmark share the file system: each reads its image when it starts, and saves a wrongly decoded image as output/<stem>.png. If no input is one of these files, then in every interleaving every image gets the outcome it has on its own, only files under output that belong to images which came back changed are written, and afterwards they hold the decoded image if no other path has the same file. Lossless codecs write no image at all, wherever the inputs are. If an input lies under output the table can depend on the schedule and the input is overwritten; of two inputs with the same stem one wrong image is lost.", "quantifier": "all file systems, lists of paths, codecs, interleavings of any number of tasks, partial writes", "why_tests_cant": "races between tasks show up only under some schedules, and only when inputs and outputs overlap", "anchors": ["src/bench.rs:28-60", "src/main.rs: under_output"]}
{"id": "C81", "title": "What the Makefile can bring about", "statement": "From no set of files without the table of zip(back) can make produce a diagram, because no rule makes that table and the copy rule needs it before the backup is made; from none without all six voronoi backups can it produce the lossy diagram, because the voronoi rule writes another file than its target. With the tables of the slow codecs and their backups both diagrams can be made; for the lossless one the two files of zip(back) are enough. The default target succeeds exactly if the images or their archive are there already.", "quantifier": "all sets of existing files, build profiles, number parsers", "why_tests_cant": "a test would run make on one state of the folders, and hours of benchmarks", "anchors": ["Makefile"]}
{"id": "C82", "title": "What a dump leaves on disk", "statement": "A dump always ends. If every image can be read and has a file name, and the output files can be created and written, it succeeds, and every output file holds the text of the last path that has it, other files being as before. If it aborts, there is a path that cannot be read, has no file name, or has an output file that cannot be created or written; the paths before it are complete, those after it untouched, and its own files are untouched or hold the start of their text. Success does not mean that the files are complete: errors while the last rows are written are ignored, so on a full disk all pixels can be lost silently.", "quantifier": "all file systems, failing or not, lists of paths, images with sides up to 2^31, curves", "why_tests_cant": "needs every point at which a file system can fail, and every mixture of paths", "anchors": ["src/main.rs:29-50", "src/hilbert.rs"]}
{"id": "C83", "title": "The tables can be read back", "statement": "Reading the file of a benchmark run as RFC 4180 says gives the heading and one record per path but those that failed, with the path, the size in decimal, and the texts of the two floating-point numbers, whatever characters the paths contain; a run without records leaves an empty file, without heading. Reading a dump gives the colours of the pixels in order.", "quantifier": "all paths (with commas, quotation marks, line breaks), records, pixels, runs", "why_tests_cant": "quoting goes wrong only for particular characters in particular places", "anchors": ["src/bench.rs:66-76", "src/main.rs:36-41", "crate csv"]}
{"id": "C84", "title": "The table on a failing disk", "statement": "Whichever writes to the benchmark's table fail, the rows that the csv writer accepts are at any time one header followed by records of distinct images, or nothing; every measured record is accepted or lost, never both, and a failed write neither blocks nor aborts the other tasks: a failed header is written again by the next task. The program ends with success exactly if the file can be created, the final flush succeeds and no task panics, whatever was lost before; so success does not mean that the table is complete.", "quantifier": "all lists of images with their outcomes, schedules, and choices of the writes that fail", "why_tests_cant": "needs a fault in every write under every schedule", "anchors": ["src/bench.rs:20-22", "src/bench.rs:62-83", "src/main.rs:68"]}
{"id": "C85", "title": "The experiment scripts", "statement": "hilbert_channels.py draws the red channel of a dump in red but the blue channel in green and the green channel in blue, because the dump exchanges two headings. hilbert_distribution.py shows every difference of a channel between neighbouring pixels once, with its number of occurrences, most frequent first; the numbers add up to the pixels less one, and the differences lie between -255 and 255. png_stats.py fails if no dimensions occur exactly once; otherwise it has a bar for each dimensions of two or more images and one for the single ones, together the number of images. Its number of colours is that of the different pixels, but the bars of its colour distribution count channel values, not colours, and add up to three times the pixels.", "quantifier": "all dumps, pixels, lists of image sizes, images", "why_tests_cant": "the curves and bars look plausible, and nothing compares them with the images", "anchors": ["scripts/experiments/hilbert_channels.py", "scripts/experiments/hilbert_distribution.py", "scripts/experiments/png_stats.py", "src/main.rs:36-41"]}
{"id": "C86", "title": "The repository's unit tests", "statement": "Each of the 84 unit tests of the repository passes on every run: in both build profiles, whatever the binary heap does with equal frequencies, the unstable sort with equal distances, whatever random numbers are drawn and whatever capacities buffers get. The k-means tests all end after the first pass, without a point that moves or an empty cluster.", "quantifier": "build profiles, heaps, sorts, random numbers, buffer capacities", "why_tests_cant": "a test run sees one heap, one sort, one sequence of random numbers; a test may pass by luck", "anchors": ["src/prs.rs: mod test", "src/bit.rs: mod tests", "src/huf.rs: mod tests", "src/zip/dict.rs: mod test", "src/zip/back.rs: mod test", "src/kmeans.rs: mod test", "src/codec/clusterc.rs: mod tests"]}
{"id": "C87", "title": "The shape of Huffman trees", "statement": "At every moment the Huffman encoder merges two lightest subtrees, the lighter on the left: the pairs of siblings of the final tree can be listed with never decreasing weights (the sibling property), so bit 0 always leads to the half with fewer items. A code of n bits needs at least F(n+2) items, a symbol that makes up half of the items or more has a code of at most one bit, and a more frequent symbol never has a longer code than a less frequent one. So the recursive tree reader of the decoders is never more than 89 calls deep on any image that the hufman or delta encoder has compressed, and no deeper than k if there are fewer than F(k+2) pixels. The README's example of the delta codec has the differences and the 36 bits that it shows, 52 bytes as a file, in whichever channels the levels are; but the tree that it shows is built by no heap and no hash order.", "quantifier": "all value types, item sequences, hash orders, heaps, images, traversals, build profiles", "why_tests_cant": "the depth that matters for the stack is reached by Fibonacci-like frequencies only, which no test image has; heaps differ in their ties", "anchors": ["src/huf.rs:56-121", "src/huf.rs:330-348", "src/codec/hufc.rs", "src/codec/deltac.rs", "README.md:146-200"]}
{"id": "C88", "title": "What clustering prints", "statement": "Counting and printing change nothing: the clustering with all its println! has the same result, uses the same random numbers and aborts in the same cases as the one without. The block printed after a pass is what it says for every run: moved and stayed points add up to all points, 'certainty radius' counts the points that stay unseen because no other centroid can be closer, 'neighbour cutoff' those for which reading the neighbour list stopped early, the three figures on tested neighbours are the maximum over all points, the minimum over clusters of the maximum over the cluster, and the truncated mean over the points that read a list (absent if none did); none contradicts another. 'Grew' counts the lists that were built anew, always 0 at the start; 'Uncommon: empty cluster' appears once for each empty cluster; exactly the last block says 'Moved: 0'; '#iterations' is the number of passes modulo 2^32. A run that aborts prints nothing if it fails before the first pass, and otherwise the same lines up to the failure: the first 'Grew', the whole blocks of the passes before, and of the last pass nothing if the assignment fails, else its report and one warning for each empty cluster up to the one without a new centroid; if too few clusters have points at the end, everything including '#iterations'. The watermark that decides on the length of the lists is not the highest position read, but that of the last point: a list is shortened below what a point has just read.", "quantifier": "all point types, points, numbers of clusters with points times clusters below 2^64, sorts, random numbers, build profiles", "why_tests_cant": "the output is never compared with anything; counters could silently drift from what happens", "anchors": ["src/kmeans.rs:21-39", "src/kmeans.rs:110-136", "src/kmeans.rs:277-318", "src/kmeans.rs:330-416"]}
{"id": "C89", "title": "What the benchmark prints", "statement": "For every image the benchmark announces the path, then prints the two sizes, the file a changed image was saved to and the error, each at most once, in that order, and each exactly when it applies; an error line is printed if and only if the image fails, and it states the reason. Printing changes nothing about the table. In every schedule without a panic, also when writes to the table are refused, each path is announced once and the error lines correspond one to one to the paths without a row, so that rows plus error lines are as many as paths. The lines of one image keep their order among those of the others, and nothing else is printed. Lossless codecs print nothing on the error stream for images that are neither empty nor too large, and three lines per row, with the size in it. But the raw size printed as bytes is the number of bits, and the lines do not tell which image failed: two runs can print the same lines in the same order although different images are missing.", "quantifier": "all codecs, images, paths, schedules, refused writes, build profiles", "why_tests_cant": "the output is never checked; interleavings of threads cannot be enumerated by running the program", "anchors": ["src/bench.rs:24-83", "src/bench.rs:106-111"]}
{"id": "C90", "title": "What zip-back prints", "statement": "The encoder prints its whole parse. Printing changes neither the result nor the bytes written. What it prints is determined by the input: each search prints at how many places of the window the next six bytes occur, again each time the bytes at hand were used up by a repetition and more were fetched; each symbol is announced, with its kind and length, before it is checked and written. The announcements are exactly those of the symbols of the parse and do not depend on the capacities of the buffers. The output stops exactly where a symbol has more than 32767 bytes or does not fit the writer, after its announcement. Into memory, the announced lengths add up to the length of the input if the encoder succeeds, which for an image is 8 plus 11 bytes per pixel, and if it aborts the last thing printed is the first announcement above 32767.", "quantifier": "all inputs, readers, writers, buffer capacities, build profiles, images", "why_tests_cant": "the output is never checked; which searches are repeated depends on the capacities the allocator chooses", "anchors": ["src/zip/back.rs:5-16", "src/zip/back.rs:64-88", "src/zip/back.rs:188-277", "src/zip/back.rs:307-312"]}
{"id": "C91", "title": "What hilbert(rle) and the Huffman decoder print", "statement": "Printing changes neither results nor bytes. hilbert(rle): nothing is printed before the dimensions are written; then one line tells whether runs are exact or approximate, and then there is exactly one line for each maximal run of 255 pixels along the traversal, in order, up to and including the run that does not fit the writer. The Huffman decoder prints its two error lines together or not at all: the test that guards the second line is always true. It prints them exactly if the dimensions and the tree are proper but there are fewer symbols than pixels; all other failures are silent.", "quantifier": "all images, traversals inside the image, distances, readers, writers, all data", "why_tests_cant": "the output is never checked; what distinguishes the guard of the second line is a state no input reaches", "anchors": ["src/codec/hilbertc.rs:26-53", "src/codec/hilbertc.rs:118-151", "src/codec/hufc.rs:19-40"]}
{"id": "C92", "title": "What zip-dict prints", "statement": "Printing changes neither result nor bytes. The encoder prints a conversion line for each crowded content of its dictionary and no other: for every place of the trie that has more than 64 children, and every place with more than 64 values, once, when the 65th is added. So it prints at least one for every input, also the empty one, because the 256 single bytes are values of the root. If a write fails the lines are those of the dictionary learnt up to that pair and nothing follows; if all writes succeed they are followed by exactly one block of statistics, with the figures of C67. The same holds for zip(dict) on images, and for hilbert(zip), which prints nothing if the dimensions cannot be written.", "quantifier": "all inputs, images, traversals inside the image, readers that deliver the bytes, writers", "why_tests_cant": "the output is never checked; thresholds in the trie are invisible in the compressed data", "anchors": ["src/zip/dict.rs:8-19", "src/zip/dict.rs:36-94", "src/zip/dict.rs:307-399", "src/zip/dict.rs:502-553", "src/codec/zipc.rs:15-25", "src/codec/hilbertc.rs:26-53"]}
{"id": "C93", "title": "What the Huffman encoder prints", "statement": "Printing changes neither result nor bytes. For every element type, symbol sequence and writer the encoder prints at most one line, on standard error, and aborts right after it. For a non-empty sequence of serialisable symbols every abort is announced by that line: it is printed exactly if the writer accepts the whole tree but not all whole bytes of the payload. Errors while the tree, the padded last byte or (for images) the dimensions are written, and errors of the flush, are returned without a line.", "quantifier": "all element types, symbol sequences, orders, heaps, images and writers", "why_tests_cant": "needs a writer that fails at a chosen byte; the line goes to standard error, which no test reads", "anchors": ["src/huf.rs:22-43", "src/huf.rs:138-147", "src/codec/hufc.rs:12-17"]}
{"id": "C94", "title": "What the codecs print", "statement": "For every codec, image and writer, printing changes neither the result nor the bytes. Each encoding into a vector that succeeds prints, in this order and nothing else: nothing for hufman and delta; the reports of the clustering, from its first list of neighbours to its number of iterations, for cluster-colors and voronoi; the choice of RLE and then only full runs of 255 for hilbert(rle); at least one conversion of a trie content and then one set of statistics for zip(dict) and hilbert(zip); marks that add up to the number of input bytes for zip(back). Encoders use standard error only for one last line before an abort, and only those with a Huffman coder; decoders print only two lines, before the error of hufman and cluster-colors. In the benchmark, the lines of the encoder follow the first line of the image, those of the decoder precede its error. In a whole run, whose tasks print at the same time, the output of each image appears in its order, line by line, and nothing else is printed; leaving out what codecs print gives the output of C89. With zip(back) the compressed size of an image always follows a mark that does not end its line.", "quantifier": "all codecs, images, environments, writers and data to decode", "why_tests_cant": "tests do not read what is printed; where in the output a line appears depends on six modules", "anchors": ["src/codec.rs:64-78", "src/codec/clusterc.rs:18-57", "src/codec/clusterc.rs:148-166", "src/codec/hilbertc.rs:405-415", "src/bench.rs:28-60"]}
{"id": "C95", "title": "How voronoi ends in a release build", "statement": "In a release build, for every image of at most 2^32 pixels and every number of clusters between one and the number of pixels, an encoding by voronoi either has not ended, or writes a file with exactly that many centroids, or aborts because a state of the run was reached in which fewer than 99% of the clusters have points; no distance, mean, sum or pass counter aborts it. With at most two clusters it never aborts. A number of clusters that is zero or larger than the number of pixels aborts in either build. With one cluster the run ends after one pass, and for images up to 46341 x 46341 the decoded image is plain, in the mean colour of the pixels. With one cluster per pixel the run ends after one pass, the file has 16 + 19 bytes per pixel, and for images up to 46341 x 46341 decoding gives the image back, without its alpha channel.", "quantifier": "all images, all sorts, random choices and bounds on the loops, all numbers of clusters, all byte sources", "why_tests_cant": "The clustering depends on random choices and on an unstable sort, on square roots in floating point and on arithmetic that wraps; a test fixes one image, one seed and one number of clusters.", "anchors": ["src/kmeans.rs:21-39", "src/kmeans.rs:330-416", "src/codec/clusterc.rs:148-247"]}
