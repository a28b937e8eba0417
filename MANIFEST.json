{
 "claims": [
  {
   "property": "C01",
   "status": "proved",
   "theorems": [
    "C01_symbol_roundtrip",
    "C01_color_pos",
    "C01_tree_roundtrip",
    "C01_roundtrip",
    "C01_roundtrip_list"
   ],
   "note": "All types built from the ser.rs implementations (universe `ty`)."
  },
  {
   "property": "C02",
   "status": "proved",
   "theorems": [
    "C02_symbol_canonical",
    "C02_color_pos",
    "C02_tree_canonical",
    "C02_canonical"
   ],
   "note": "Any byte iterator, any stream."
  },
  {
   "property": "C03",
   "status": "proved",
   "theorems": [
    "C03_color_pos",
    "C03_color_pos_no_panic",
    "C03_tree_truncated",
    "C03_tree_no_panic",
    "C03_truncation",
    "C03_never_panics"
   ],
   "note": "Truncation gives None; no input panics."
  },
  {
   "property": "C04",
   "status": "proved",
   "theorems": [
    "C04_values_to_bytes",
    "C04_bytes_to_values",
    "C04_bad_value_aborts"
   ],
   "note": "Both directions, plus the abort on an unserializable value."
  },
  {
   "property": "C05",
   "status": "proved",
   "theorems": [
    "C05_symbol_short_write",
    "C05_color_pos",
    "C05_tree_short_write",
    "C05_tree_bad_char",
    "C05_short_write",
    "C05_bad_char",
    "C05_bad_char_writes_nothing"
   ],
   "note": "Every crash point k; characters above U+00FF."
  },
  {
   "property": "C06",
   "status": "proved",
   "theorems": [
    "C06_pack_of_bits",
    "C06_bits_of_pack",
    "C06_pack_only_eight",
    "C06_pack_refuses",
    "C06_layout",
    "C06_mask"
   ],
   "note": "All bytes, all bit sequences, both orders."
  },
  {
   "property": "C07",
   "status": "proved",
   "theorems": [
    "C07_session",
    "C07_session_crash"
   ],
   "note": "Any list of write/write_byte/write_arr operations, MSB order; also every crash point."
  },
  {
   "property": "C08",
   "status": "proved",
   "theorems": [
    "C08_bit_array",
    "C08_len"
   ],
   "note": "Any preceding operations, so any alignment."
  },
  {
   "property": "C09",
   "status": "proved",
   "theorems": [
    "C09_lsb_aligned",
    "C09_lsb_unaligned_byte_aborts",
    "C09_lsb_flush_loses_bits",
    "C09_lsb_flush",
    "C09_lsb_session_refuted",
    "C09_lsb_sessions"
   ],
   "note": "Includes the refutation of C07 for the LSB order with a witness; C09_lsb_sessions decides every mixture of operations that fills whole bytes; C09_lsb_flush says exactly what the flush writes: zeros, then the oldest of the last eight bits."
  },
  {
   "property": "C10",
   "status": "proved",
   "theorems": [
    "C10_frequencies"
   ],
   "note": "Any type with decidable equality."
  },
  {
   "property": "C11",
   "status": "proved",
   "theorems": [
    "C11_roundtrip"
   ],
   "note": "All hash orders and heap tie-breaks; any byte iterator delivering the output."
  },
  {
   "property": "C12",
   "status": "proved",
   "theorems": [
    "C12_complete_prefix_code"
   ],
   "note": "Any frequency table (not only those of sequences)."
  },
  {
   "property": "C13",
   "status": "proved",
   "theorems": [
    "C13_optimal"
   ],
   "note": "Against every prefix-free code (C12's theorem states it for tables too)."
  },
  {
   "property": "C14",
   "status": "proved",
   "theorems": [
    "C14_empty_aborts",
    "C14_never_aborts"
   ],
   "note": "Symbols must have a byte form (no characters above U+00FF)."
  },
  {
   "property": "C15",
   "status": "proved",
   "theorems": [
    "C15_crash_points"
   ],
   "note": "Every crash point and a failing flush."
  },
  {
   "property": "C16",
   "status": "proved",
   "theorems": [
    "C16_output_size",
    "C16_single_symbol"
   ],
   "note": "Sizes and the endless single-symbol stream."
  },
  {
   "property": "C17",
   "status": "proved",
   "theorems": [
    "C17_encodes",
    "C17_roundtrip"
   ],
   "note": "All byte iterators that end and stay ended; the decoder needs at most 2 nested calls on encoder output; also every output cut short by a full writer."
  },
  {
   "property": "C18",
   "status": "proved",
   "theorems": [
    "C18_trie_is_map"
   ],
   "note": "All insertion histories of non-empty byte strings, any value type."
  },
  {
   "property": "C19",
   "status": "proved",
   "theorems": [
    "C19_greedy"
   ],
   "note": "Inductive greedy parsing with the dictionary as a list of strings."
  },
  {
   "property": "C20",
   "status": "proved",
   "theorems": [
    "C20_size"
   ],
   "note": "Size is 4*p with 2*p <= n+1."
  },
  {
   "property": "C21",
   "status": "proved",
   "theorems": [
    "C21_foreign_data",
    "C21_stack_overflow"
   ],
   "note": "Exact outcome for every byte stream, given enough stack; and a family of streams that overflows any stack (finding)."
  },
  {
   "property": "C22",
   "status": "proved",
   "theorems": [
    "C22_roundtrip"
   ],
   "note": "For every input (shorter than 2^64 bytes) and every iterator, build profile and buffer capacities: whenever encoding returns Ok, the decoder yields exactly the input and then ends; the history ring wraps inside the proof."
  },
  {
   "property": "C23",
   "status": "proved",
   "theorems": [
    "C23_abort",
    "C23_short_inputs",
    "C23_no_larger_bound",
    "C23_constant"
   ],
   "note": "Abort iff a symbol of the specified parse is longer than 32767; never an I/O error on a Vec; inputs of at most 32767 bytes are safe; a 32768-byte input aborts; every constant input of 65536 bytes or more aborts. Finding: the compressor cannot handle long repetitive inputs."
  },
  {
   "property": "C24",
   "status": "proved",
   "theorems": [
    "C24_capacities"
   ],
   "note": "Equality of the whole outcome on every writer for any two capacity sequences (each >= 6), iterators, profiles."
  },
  {
   "property": "C25",
   "status": "proved",
   "theorems": [
    "C25_ring"
   ],
   "note": "For every ring size > 0 (65535 in the code)."
  },
  {
   "property": "C26",
   "status": "proved",
   "theorems": [
    "C26_index"
   ],
   "note": "For every ring size > 0 and every six-byte key: offered positions are exactly the window occurrences, strictly increasing."
  },
  {
   "property": "C27",
   "status": "proved",
   "theorems": [
    "C27_longest_match"
   ],
   "note": "Symbols follow the independent relation parses; each look-back is the longest match of the window, earliest position among equals."
  },
  {
   "property": "C28",
   "status": "proved",
   "theorems": [
    "C28_symbol_writes",
    "C28_symbol_roundtrip",
    "C28_symbol_outcomes",
    "C28_truncated"
   ],
   "note": "Writer, round trip, all outcomes of the reader on any byte source, and truncation (a cut literal run panics, finding)."
  },
  {
   "property": "C29",
   "status": "proved",
   "theorems": [
    "C29_image_literals",
    "C29_small_images",
    "C29_one_colour"
   ],
   "note": "Literal runs of image streams are shorter than 2048; hence abort iff a long repetition; images of at most 32767 stream bytes are safe; one-colour images of 8938 pixels or more always abort (finding)."
  },
  {
   "property": "C30",
   "status": "proved",
   "theorems": [
    "C30_exact_runs"
   ],
   "note": "For any item type with a correct equality, any input."
  },
  {
   "property": "C31",
   "status": "proved",
   "theorems": [
    "C31_hufman_lossless",
    "C31_hufman_empty"
   ],
   "note": "All non-empty images, hash orders and heap tie-breaks. Empty images abort (finding)."
  },
  {
   "property": "C32",
   "status": "proved",
   "theorems": [
    "C32_zip_dict",
    "C32_zip_back",
    "C32_zip_back_outcome"
   ],
   "note": "zip(dict) for every image; zip(back) whenever the encoder returns, and it never returns an I/O error on a Vec; when it aborts is C23/C29."
  },
  {
   "property": "C33",
   "status": "proved",
   "theorems": [
    "C33_hilbert_lossless",
    "C33_all_pixels_needed"
   ],
   "note": "Lossless for every bijective traversal; for a traversal inside the image, lossless on all images iff every pixel is visited."
  },
  {
   "property": "C34",
   "status": "proved",
   "theorems": [
    "C34_delta_lossless",
    "C34_differences",
    "C34_delta_empty"
   ],
   "note": "Differences in [-255,255] per channel, both build profiles; empty images abort (finding)."
  },
  {
   "property": "C35",
   "status": "proved",
   "theorems": [
    "C35_decoded_opaque",
    "C35_alpha"
   ],
   "note": "Any byte source: a decoded image is opaque; the round trip is the identity iff the image is opaque."
  },
  {
   "property": "C36",
   "status": "proved",
   "theorems": [
    "C36_approx_runs",
    "C36_mean",
    "C36_extreme_distances"
   ],
   "note": "Exact binary64 arithmetic (Flocq). Also the degenerate distances: NaN, negative, infinite."
  },
  {
   "property": "C37",
   "status": "proved",
   "theorems": [
    "C37_error_exceeds_d_refuted"
   ],
   "note": "Concrete image, d = 40, one pixel is off by 203 > 5*d."
  },
  {
   "property": "C38",
   "status": "proved",
   "theorems": [
    "C38_dimensions_cut",
    "C38_hufman_cut",
    "C38_delta_cut",
    "C38_hilbert_returns_image_refuted"
   ],
   "note": "Dimension bytes cut (all codecs), Hufman at every cut, delta at every cut; the expectation for the hilbert codecs is refuted by a witness, their exact outcomes are C54."
  },
  {
   "property": "C39",
   "status": "proved",
   "theorems": [
    "C39_every_point_once",
    "C39_every_pass"
   ],
   "note": "Proved for every distance, mean, sort and random choice, and for the state at the start of every pass. Termination of the whole loop is not claimed."
  },
  {
   "property": "C40",
   "status": "proved",
   "theorems": [
    "C40_initial_chunks",
    "C40_refused"
   ],
   "note": "Chunk sizes and contents, and the abort for zero clusters or too few points."
  },
  {
   "property": "C41",
   "status": "proved",
   "theorems": [
    "C41_lists",
    "C41_at_most_twice",
    "C41_full_at_first"
   ],
   "note": "For every state at the start of a pass and up to 16777216 clusters: distinct other ids, true finite distances, sorted, length between min(k-1, isqrt k) and k-1. The maintenance loop needs at most two rounds. The first lists have full length."
  },
  {
   "property": "C42",
   "status": "proved",
   "theorems": [
    "C42_nearest",
    "C42_full_lists",
    "C42_two_clusters_full"
   ],
   "note": "Nearest in exact integer distance, for complete lists, keeping all points; complete in the first pass and always for two clusters. Also: a pass reports no change exactly if the assignment was already nearest."
  },
  {
   "property": "C43",
   "status": "proved",
   "theorems": [
    "C43_reduced_image",
    "C43_too_few_colours"
   ],
   "note": "For every image below 2^32 pixels, every random choice and either build; the abort for n = 0 or fewer than n colours is also proved."
  },
  {
   "property": "C44",
   "status": "proved",
   "theorems": [
    "C44_release",
    "C44_decode_release",
    "C44_size",
    "C44_truncated",
    "C44_no_centroids",
    "C44_decode_debug",
    "C44_encode_debug",
    "C44_wide_refuted"
   ],
   "note": "Release build up to 46341x46341, truncation, size, zero centroids; debug build aborts in both directions; witness beyond 46341 (refuted)."
  },
  {
   "property": "C45",
   "status": "proved",
   "theorems": [
    "C45_weighted_mean",
    "C45_position_mean",
    "C45_one_point"
   ],
   "note": "Both means, per component, for either build."
  },
  {
   "property": "C46",
   "status": "proved",
   "theorems": [
    "C46_calls",
    "C46_unique",
    "C46_deep_refuted",
    "C46_all"
   ],
   "note": "Sound and complete for both build profiles; pieces unique. C46_all has no bound on the nesting: the u16 depth counter wraps in release builds (C46_deep_refuted: 'a' and 65536 opening parentheses is accepted), and exactly which deeper texts are accepted is proved."
  },
  {
   "property": "C47",
   "status": "proved",
   "theorems": [
    "C47_never_accepted",
    "C47_aborts_refuted",
    "C47_rejects_refuted",
    "C47_outcomes",
    "C47_debug",
    "C47_release",
    "C47_slices",
    "C47_boundaries"
   ],
   "note": "Which texts are accepted, abort, or are rejected, exactly, for all texts (C47_debug, C47_release have no bound on the nesting), with text as UTF-8 bytes; proper calls that abort and that are rejected are exhibited. Finding: character index used as byte index."
  },
  {
   "property": "C48",
   "status": "proved",
   "theorems": [
    "C48_first_success",
    "C48_all_failed",
    "C48_aborts"
   ],
   "note": "Exact characterisation of success, failure and abort, for parsers with effects (so later parsers are not run)."
  },
  {
   "property": "C49",
   "status": "proved",
   "theorems": [
    "C49_selection",
    "C49_all",
    "C49_cluster_colors",
    "C49_voronoi",
    "C49_too_big",
    "C49_usage_refuted",
    "C49_not_ascii"
   ],
   "note": "Selection and aborts decided for every text, both profiles (C49_all), and for shallow ASCII text by an independent grammar of spellings (C49_selection); each documented spelling, numbers too big, non-ASCII; the usage text's reduce-colors is refuted. f64::from_str and the regex digit class are arguments."
  },
  {
   "property": "C50",
   "status": "proved",
   "theorems": [
    "C50_table",
    "C50_always",
    "C50_panic",
    "C50_progress",
    "C50_terminates"
   ],
   "note": "Interleaving model of the parallel loop: every schedule keeps header-then-rows, ends with one row per successful image below one header, never gets stuck, always terminates; a panicking task is passed on. csv writes are taken as infallible."
  },
  {
   "property": "C51",
   "status": "proved",
   "theorems": [
    "C51_mean_square",
    "C51_any_size",
    "C51_shape_refuted",
    "C51_empty",
    "C51_wide"
   ],
   "note": "Error within one part in a million of the exact mean of squared distances and zero exactly for equal colours; compares the common prefix whatever the shapes; NaN for empty images; from 2^32 pixels on debug aborts, release wraps. The claim that different shapes are told apart is refuted."
  },
  {
   "property": "C52",
   "status": "proved",
   "theorems": [
    "C52_ratio",
    "C52_overflow"
   ],
   "note": "The reported percentage is an eighth of the true one, to within 1e-15 relative, for 24*pixels < 2^32; beyond that debug aborts and release can report infinity."
  },
  {
   "property": "C53",
   "status": "proved",
   "theorems": [
    "C53_small_square",
    "C53_large_square",
    "C53_overflow",
    "C53_largest_refuted"
   ],
   "note": "Sides up to 2^31; larger sides abort in debug builds. The source comment's 'largest square' is refuted."
  },
  {
   "property": "C54",
   "status": "proved",
   "theorems": [
    "C54_hilbert_rle",
    "C54_hilbert_zip",
    "C54_zip_dict",
    "C54_zip_back"
   ],
   "note": "Exact outcome at every cut point."
  },
  {
   "property": "C55",
   "status": "proved",
   "theorems": [
    "C55_stops_early_refuted",
    "C55_stable_refuted"
   ],
   "note": "Two witnesses, found by simulation, checked by computation; the second is shown stable for every later pass."
  },
  {
   "property": "C56",
   "status": "proved",
   "theorems": [
    "C56_passes_check",
    "C56_encodes",
    "C56_record_right"
   ],
   "note": "Every codec that calls itself lossless, on every image with at least one pixel, gets its row with error zero; all but zip(back) always encode, and zip(back) encodes all images of at most 2978 pixels (beyond: C26, C29). Conversely a row from a codec that calls itself lossless means the colours came back."
  },
  {
   "property": "C57",
   "status": "proved",
   "theorems": [
    "C57_dispatch",
    "C57_otherwise_aborts"
   ],
   "note": "Dispatch decided for every argument list; every other list aborts."
  },
  {
   "property": "C58",
   "status": "proved",
   "theorems": [
    "C58_dump",
    "C58_green_column_refuted"
   ],
   "note": "The exact files, names, order and columns; the headings blue and green are exchanged (refuted example). Hilbert traversal itself is an oracle visiting every position once (C33, C53)."
  },
  {
   "property": "C59",
   "status": "proved",
   "theorems": [
    "C59_inside",
    "C59_exact",
    "C59_aborts",
    "C59_collide",
    "C59_distinct_refuted"
   ],
   "note": "File names as in std::path on Unix; uniqueness of output files is refuted."
  },
  {
   "property": "C60",
   "status": "proved",
   "theorems": [
    "C60_table_file"
   ],
   "note": "Display of f64 is a parameter assumed injective."
  },
  {
   "property": "C61",
   "status": "proved",
   "theorems": [
    "C61_ends_refuted",
    "C61_one_cluster"
   ],
   "note": "One cluster: proved for every image. Two clusters: refuted by a 129-pixel image (C61_ends_refuted); found by an LP search, checked here for every sort, random tape and fuel; the i32 that counts passes makes debug builds abort in pass 2^31."
  },
  {
   "property": "C62",
   "status": "proved",
   "theorems": [
    "C62_cluster_per_colour"
   ],
   "note": "All images, hash orders, sorts and random tapes; pixels below 2^32."
  },
  {
   "property": "C63",
   "status": "proved",
   "theorems": [
    "C63_outcomes",
    "C63_two_clusters",
    "C63_tolerance",
    "C63_enough_colours_refuted"
   ],
   "note": "Aborts only at the final check (and in pass 2^31 of a debug build), whose f64 tolerance is exactly floor(99n/100) for n up to 2^32. That enough colours never abort is refuted by a 17-pixel image."
  },
  {
   "property": "C64",
   "status": "proved",
   "theorems": [
    "C64_foreign_data"
   ],
   "note": "Complete description of the decoder on every byte sequence below 2^48 bytes, in both profiles."
  },
  {
   "property": "C65",
   "status": "proved",
   "theorems": [
    "C65_decoded_is_image",
    "C65_short_data",
    "C65_huge_dimensions",
    "C65_never_aborts_refuted"
   ],
   "note": "Decoded images are well formed for every input and environment; the claim that decoding never aborts is refuted for every codec."
  },
  {
   "property": "C66",
   "status": "proved",
   "theorems": [
    "C66_zip_back",
    "C66_zip_dict"
   ],
   "note": "Exact characterisation of accepted data. zip-dict needs a stack deeper than a quarter of the data length (C21_stack_overflow shows that it can overflow)."
  },
  {
   "property": "C67",
   "status": "proved",
   "theorems": [
    "C67_statistics",
    "C67_density",
    "C67_encoder",
    "C67_drop"
   ],
   "note": "figures printed and Drop; counters unbounded (node_count is an i32 in the code)"
  },
  {
   "property": "C68",
   "status": "proved",
   "theorems": [
    "C68_any_run",
    "C68_lossless_run",
    "C68_dump_run",
    "C68_dump_unreadable"
   ],
   "note": "Whole-program relation composing argument parsing, measuring, scheduling and file names; file system always accepts the output file. Records with an error only for lossy codecs whose changed image was saved (passes)."
  },
  {
   "property": "C69",
   "status": "proved",
   "theorems": [
    "C69_fixed",
    "C69_cluster_colors",
    "C69_approx",
    "C69_voronoi_refuted"
   ],
   "note": "Makefile rules modelled as data; refutation for the voronoi rule (C69_voronoi_refuted)."
  },
  {
   "property": "C70",
   "status": "proved",
   "theorems": [
    "C70_cut_output",
    "C70_same_data",
    "C70_no_flush",
    "C70_error_returned_refuted"
   ],
   "note": "Holds without hypotheses on the image or environment; refutation that errors are always returned."
  },
  {
   "property": "C71",
   "status": "proved",
   "theorems": [
    "C71_hufman",
    "C71_delta",
    "C71_runs",
    "C71_runs_least",
    "C71_runs_worst",
    "C71_zip_back",
    "C71_zip_images",
    "C71_hilbert_zip"
   ],
   "note": "exact sizes for hufman, delta and run lengths; bounds for the zip compressors"
  },
  {
   "property": "C72",
   "status": "proved",
   "theorems": [
    "C72_full_match",
    "C72_groups",
    "C72_alternatives_refuted",
    "C72_two_alternatives",
    "C72_unchecked",
    "C72_guarded"
   ],
   "note": "the claim is false for patterns with top-level alternatives (C72_alternatives_refuted); exact characterisation proved"
  },
  {
   "property": "C73",
   "status": "proved",
   "theorems": [
    "C73_hufman",
    "C73_depth",
    "C73_delta",
    "C73_rle",
    "C73_hilbert_zip"
   ],
   "note": "Exact acceptance for hufman (also the decoder of cluster-colors), delta, hilbert(rle) and hilbert(zip) on arbitrary bytes. C73_depth: recursion depth is not bounded by any constant. The hilbert(zip) claim assumes enough stack for the dictionary decoder, linear in the length."
  },
  {
   "property": "C74",
   "status": "proved",
   "theorems": [
    "C74_accepts",
    "C74_debug_nearest"
   ],
   "note": "Exact acceptance in both profiles. The wrap-around that makes a release build show a farther point is C74_cases (and C44)."
  },
  {
   "property": "C75",
   "status": "proved",
   "theorems": [
    "C75_tables",
    "C75_dumps",
    "C75_images",
    "C75_series",
    "C75_scatter",
    "C75_boxplot",
    "C75_sorted",
    "C75_lossless",
    "C75_png_ratio",
    "C75_drawable_refuted"
   ],
   "note": "Names of the files, series, boxes and points for all sets of files; pandas' mean and the printing of numbers are oracles with stated contracts (mean: quotient of a sum in any order of the numbers that are not NaN; reread: NaN stays NaN, others within a factor of two). The claim that diagrams can be drawn after every successful run is refuted."
  },
  {
   "property": "C76",
   "status": "proved",
   "theorems": [
    "C76_bytes",
    "C76_decoded",
    "C76_header",
    "C76_dimensions",
    "C76_error"
   ],
   "note": "For the lossy cluster codecs less than 2^32 pixels. Same dimensions: for zip(back) less than about 2^60 pixels, for zip(dict) a decoding stack of at least two words."
  },
  {
   "property": "C77",
   "status": "proved",
   "theorems": [
    "C77_runs",
    "C77_clusters",
    "C77_clusters_best_refuted",
    "C77_weighted_mean",
    "C77_position_mean",
    "C77_assignment"
   ],
   "note": "Claim 'best palette' refuted by C77_clusters_best_refuted; the bound of 3 per pixel is proved."
  },
  {
   "property": "C78",
   "status": "proved",
   "theorems": [
    "C78_below_one",
    "C78_below_gap",
    "C78_grey",
    "C78_from_442",
    "C78_larger_distance_smaller_file_refuted",
    "C78_larger_distance_larger_error_refuted"
   ],
   "note": "Distances at both ends for all images; that the distance is monotone in between is refuted by two small images."
  },
  {
   "property": "C79",
   "status": "proved",
   "theorems": [
    "C79_dict_pairs",
    "C79_back_literal",
    "C79_back_example_refuted",
    "C79_back_triple",
    "C79_back_twice_refuted"
   ],
   "note": "The README examples for zip-dict and zip-back, generalised; the zip-back one and 'long repetitions are found' are refuted."
  },
  {
   "property": "C80",
   "status": "proved",
   "theorems": [
    "C80_independent",
    "C80_only_outputs",
    "C80_saved",
    "C80_ends",
    "C80_lossless",
    "C80_any_order_refuted",
    "C80_inputs_kept_refuted",
    "C80_shared_refuted"
   ],
   "note": "Images.v adds to the model of one image the files that the tasks share. C80_independent justifies the fixed function opens of Program.v; without the hypothesis it is false (C80_any_order_refuted). A file that is written completely holds the decoded image: png is lossless."
  },
  {
   "property": "C81",
   "status": "proved",
   "theorems": [
    "C81_without_voronoi",
    "C81_without_zip_back",
    "C81_lossless",
    "C81_diagrams",
    "C81_all"
   ],
   "note": "MakeGraph.v models prerequisites, pattern rules and recipes on the set of existing files; time stamps are abstracted by letting a recipe be skipped or run when its target exists."
  },
  {
   "property": "C82",
   "status": "proved",
   "theorems": [
    "C82_ends",
    "C82_succeeds",
    "C82_files",
    "C82_abort",
    "C82_any",
    "C82_complete_refuted"
   ],
   "note": "Effects in order: positions, name, creation, rows. creates/writes say which files work; a failing write leaves any prefix of the text, with or without an abort (the csv writer ignores errors when dropped)."
  },
  {
   "property": "C83",
   "status": "proved",
   "theorems": [
    "C83_table",
    "C83_dump",
    "C83_run"
   ],
   "note": "CsvText.v models how the csv crate quotes; CsvSpec.v has an independent reader. show64, the text of an f64 (crate ryu), is an argument."
  },
  {
   "property": "C84",
   "status": "proved",
   "theorems": [
    "C84_always",
    "C84_run",
    "C84_no_failure",
    "C84_progress",
    "C84_terminates",
    "C84_complete_refuted"
   ],
   "note": "C84_complete_refuted refutes that a successful run has a record of every measured image. Rows are those the csv writer accepts; what a failing disk makes of accepted rows is not modelled."
  },
  {
   "property": "C85",
   "status": "proved",
   "theorems": [
    "C85_channels",
    "C85_channels_refuted",
    "C85_distribution",
    "C85_distribution_exists",
    "C85_dimensions_fail",
    "C85_dimensions",
    "C85_colours",
    "C85_colour_bars",
    "C85_colour_bars_refuted"
   ],
   "note": "C85_channels_refuted and C85_colour_bars_refuted refute that the green curve is the green channel and that the bars of the colour distribution are colours. pandas, PIL and numpy are modelled as described in DESIGN.md."
  },
  {
   "property": "C86",
   "status": "proved",
   "theorems": [
    "C86_prs",
    "C86_bit",
    "C86_huf",
    "C86_dict",
    "C86_back",
    "C86_kmeans",
    "C86_cluster"
   ],
   "note": "All 84 tests replayed in the model; i32 arithmetic of the test points is exact (small numbers)."
  },
  {
   "property": "C87",
   "status": "proved",
   "theorems": [
    "C87_siblings",
    "C87_zero_is_lighter",
    "C87_lengths",
    "C87_hufman_depth",
    "C87_delta_depth",
    "C87_readme_tree_refuted"
   ],
   "note": "Depth of the recursion, not bytes of stack. The traversal of the README's picture is an assumption on the oracle scan."
  },
  {
   "property": "C88",
   "status": "proved",
   "theorems": [
    "C88_silent",
    "C88_pass",
    "C88_neighbours",
    "C88_run",
    "C88_cut",
    "C88_empty",
    "C88_watermark_refuted"
   ],
   "note": "C88_silent: erasing counters and output gives the model of Kmeans.v (points*k < 2^64, k < 2^31). C88_pass: every figure of a block from what happens to each point, in every reachable state. C88_neighbours, C88_empty: the lines Grew and Uncommon. C88_run: the whole output of a successful run. C88_watermark_refuted: the watermark is that of the last point, in the claim's last sentence. C88_cut: the output of runs that abort, or that are still running when the fuel of the model ends."
  },
  {
   "property": "C89",
   "status": "proved",
   "theorems": [
    "C89_outcome",
    "C89_lines",
    "C89_silent",
    "C89_run",
    "C89_count",
    "C89_order",
    "C89_nothing_else",
    "C89_quiet",
    "C89_bits",
    "C89_bytes_refuted",
    "C89_attributed_refuted"
   ],
   "note": "Messages of the codecs themselves are in C94; those of the runtime on panics are left out; the texts of library errors and the way ByteSize writes numbers are left open. Lines are printed whole (println! locks the stream). Refuted: that the raw size is in bytes (C89_bytes_refuted), that the messages tell which image failed (C89_attributed_refuted)."
  },
  {
   "property": "C90",
   "status": "proved",
   "theorems": [
    "C90_silent",
    "C90_output",
    "C90_symbols",
    "C90_outcome",
    "C90_image"
   ],
   "note": "The output is specified by told: greedy parse plus which searches are repeated; the bound of each repeated search depends on buffer capacities, which are arbitrary. Printing itself is taken not to fail."
  },
  {
   "property": "C91",
   "status": "proved",
   "theorems": [
    "C91_silent",
    "C91_rle",
    "C91_decode_silent",
    "C91_together",
    "C91_decode"
   ],
   "note": "The three lines of hilbert(rle) and the two of the Huffman decoder; for all readers and writers where the theorem says so, the exact lines for byte lists and traversals inside the image."
  },
  {
   "property": "C92",
   "status": "proved",
   "theorems": [
    "C92_output",
    "C92_number",
    "C92_image",
    "C92_hilbert"
   ],
   "note": "For every writer and every reader that delivers the bytes; the number of lines is that of the crowded places of the dictionary, which C92_number says is unique. C92_image and C92_hilbert instantiate this for images. The statistics need no more steps than there are input bytes, plus two. The text around the figures is not modelled."
  },
  {
   "property": "C93",
   "status": "proved",
   "theorems": [
    "C93_silent",
    "C93_once",
    "C93_abort",
    "C93_when",
    "C93_image_silent",
    "C93_image"
   ],
   "note": "For every writer of the model. The text of the line is the Debug form of the writer's error, which is not modelled."
  },
  {
   "property": "C94",
   "status": "proved",
   "theorems": [
    "C94_silent",
    "C94_success",
    "C94_quiet",
    "C94_stderr",
    "C94_decode",
    "C94_bench",
    "C94_order",
    "C94_record",
    "C94_glued",
    "C94_run",
    "C94_tasks",
    "C94_run_silent",
    "C94_run_order",
    "C94_nothing_else",
    "C94_statistics"
   ],
   "note": "Composition of C88 and C90-C93. Counters of the clustering are assumed not to overflow (pixels * n < 2^64, n < 2^31), and the statistics of the trie to be computed with enough fuel (11 * pixels + 9 nodes). C94_stderr and C94_decode hold without any assumption. In runs each println! or print! is taken to be atomic, as the standard library locks the stream; the eight lines of the statistics are separate pieces. C94_glued is a finding."
  },
  {
   "property": "C95",
   "status": "proved",
   "theorems": [
    "C95_outcomes",
    "C95_two_clusters",
    "C95_wrong_number",
    "C95_one_cluster",
    "C95_cluster_per_pixel"
   ],
   "note": "release build; the debug build aborts on most images already (C44); whether the loop ends for other numbers of clusters is left open (None: it has not ended within the bound)"
  }
 ]
}