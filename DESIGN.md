# Formal model of hkapp/cniic in Rocq (Coq 8.16.1)

The plan below was written before the proofs and is kept current. The claims in English are in
`properties.jsonl`, the theorem names per claim in `MANIFEST.json`, the wrong programs the theorems
were tried on in `seeded/LOG.jsonl`.

## Layout

Per part of the code there are four kinds of file in `rocq/theories`:

* **model** (`Base Ser Bit Utils Huf Dict Back Img Float HilbertC Kmeans ClusterC Prs Regex Select Main
  Bench Special TrieStats Program Writers Patterns`): definitions only, each citing the lines of /repo it models;
* **specification** (`*Spec.v`): what the properties talk about, written without the model's helpers;
* **proofs** (everything else not starting with `Props`);
* **properties** (`Props*.v`): theorem statements closed by `exact lemma`, a concrete `Example` meeting
  the hypotheses, and `Print Assumptions` after every theorem.

## Shape of the model

* Outcomes are `res A := Ok a | Err | Panic`; `Err` is `None`/`Err(_)`, `Panic` any
  panic (assert, unwrap, index, checked overflow). A loop that runs out of fuel gives `None`
  (or an outcome stated in the theorem), never a normal value; theorems say "for all large enough fuel".
* A writer is "bytes accepted so far + how many more it accepts"; every crash point of
  the output is a value of that type.
* An iterator is a state plus a `next` function; laziness (what is pulled when) is kept.
* u8/u16/u32/u64/usize are `N` with explicit range predicates and explicit wrap or
  panic where the code can overflow (`profile := Debug | Release`). usize is 64 bits.
* HashMap iteration order, BinaryHeap tie-breaking, sort_unstable order, Vec capacity
  growth, thread_rng and the zhang_hilbert scan are *arguments* of the model functions;
  theorems quantify over every argument that meets the documented contract
  (`ord_ok`, `heap_ok`, `sort_ok`, `caps_ok`, any rng tape, `visits_all`).
* f64 is IEEE-754 binary64 from Flocq (round to nearest even), executable.

## Plan per property

| id | modelled in | proved in | how it is proved |
|----|-------------|-----------|------------------|
| C01-C05 | Ser.v | SerProofs.v | deep universe of types; induction on the type; per-type byte format spec; induction on sequences of values |
| C06-C09 | Bit.v | BitProofs.v | finite sweep over bytes lifted by forallb; invariant of the writer over operation lists; witness for LSB |
| C10 | Utils.v | UtilsProofs.v | induction on the sequence |
| C11, C12, C14-C16 | Huf.v | HufProofs.v, HufTop.v | tree invariants through the heap loop; iterator = in-order traversal; prefix decoding; Kraft equality by induction |
| C13 | Huf.v | HufOpt.v | exchange argument / sibling lemma, induction on the number of leaves |
| C17, C19-C21 | Dict.v | DictProofs.v, DictEnc.v | refinement: encoder trie and decoder map represent the same list of strings |
| C18 | Dict.v | DictProofs.v | refinement of Content/Node to finite maps |
| C22-C28 | Back.v | BackProofs, BackRing, BackEnc, BackDec, BackLong | ring buffer and index refined to the full written history; symbol-stream semantics; induction on remaining input |
| C29 | Back.v, Img.v | CodecZip.v | 2 is a primitive root mod 11, so probes at offsets 0,2,4,8,... meet the constant length prefix of a pixel |
| C30-C35, C38, C54 | Img.v, HilbertC.v | CodecBytes, CodecZip, CodecHilbert, CodecTop, CodecFinal | composition of the above with image layout; induction over traversals |
| C36, C37 | HilbertC.v, Float.v | FloatProofs.v, CodecApprox.v | exact binary64 computation with Flocq; monotonicity of rounding; witness by computation |
| C39-C41 | Kmeans.v | KmeansProofs, KmeansTop | invariants over every pass with arbitrary oracles |
| C42, C55 | Kmeans.v, ClusterC.v | KmeansFloat, KmeansNear, KmeansEnd, KmeansCases | binary64 sqrt comparisons equal integer comparisons of squares; triangle inequality over squares; witnesses by computation |
| C43-C45 | ClusterC.v | ClusterProofs, ClusterColors, VoronoiProofs, VoronoiDebug, ClusterTop | composition with C31 and C39 |
| C46-C48 | Prs.v | PrsProofs, PrsTop, PrsWideSpec, PrsWide, PrsDeepSpec, PrsDeep | grammar as an inductive relation; parser state invariant; text as UTF-8 bytes |
| C49, C57 | Regex.v, Select.v, Main.v | RegexProofs, SelectProofs, SelectTop, SelectAllSpec, SelectAll | backtracking regex semantics proved equal to leftmost-first matching; independent grammar of spellings |
| C50 | Bench.v | BenchPar.v | small-step interleaving of tasks with a lock; invariant over schedules; well-founded measure |
| C51-C52, C56 | Bench.v | BenchFloat, BenchTop, BenchLossless | Flocq sums of non-negative terms; arithmetic; C31-C35 |
| C53 | HilbertC.v | CodecSquare.v | arithmetic on next_power_of_two |
| C58-C60 | Special.v | SpecialProofs.v | exact file contents; path functions by induction on the text |
| C61 | Kmeans.v, ClusterC.v | KmeansLoop.v, ClusterExact.v | two clusters need no oracle, so a pass is a function; the state after five passes returns after nine, by computation; period lemma |
| C62, C63 | Kmeans.v, ClusterC.v | KmeansCheck, KmeansTotal, ClusterExact | totality of every step from well-formed states; a pass without change keeps the clusters; Flocq bounds for 0.99 * n; witness run by computation |
| C64 | Back.v | BackForeign.v | `unpacks` is a grammar of all byte sequences: existence by strong induction on the length, uniqueness because the decoder is a function |
| C65 | Bench.v (`any_decode`) and the codecs | ForeignKeeps.v, ForeignTop.v | invariant `keeps`: if the bytes read are bytes, everything read from them is in range |
| C66 | Img.v | ForeignZip.v | simulation between a decoder state and the list of bytes it will deliver |
| C67 | TrieStats.v | TrieProofs.v, TrieTop.v | the nodes of a trie as a list of paths, by induction on well-formed tries; a walk visits a subtree completely before the rest of the stack |
| C68 | Program.v (over Main.v, Bench.v, Special.v) | ProgramProofs.v | composition of C50, C56, C57, C58, C60; tasks are matched to paths by a permutation |
| C69 | Program.v (rules as data, files as a map) | ProgramProofs.v | C49's specification of names; decimal digits by induction on Coq's decimal numbers |
| C70 | Writers.v | WriterProofs.v | `tidy`: what a writing computation does on every writer, closed under sequencing |
| C71 | Img.v, HilbertC.v, Back.v (no new code) | SizeProofs.v | C13/C16 with a fixed-length code as competitor; greedy runs against any other cutting by induction; bytes per symbol along the parse of zip-back |
| C72 | Patterns.v | PatternProofs.v | ways to match = language of the pattern, by induction on the pattern; case analysis |
| C73 | Img.v, HilbertC.v, Huf.v (no new code) | AcceptProofs, AcceptPaint, AcceptStreams, AcceptZip | grammars of all data (AcceptSpec.v), total and unambiguous; `paint_any` for any stream that ends or is long enough |
| C74 | ClusterC.v (no new code) | AcceptVoronoi.v | squares of wrapped differences are right modulo 2^32; least keys are unique |
| C75 | Diagrams.v | DiagramProofs, DiagramFloat, DiagramTop | sums in any order of values that are zero or at least 2^-41 stay so (monotone rounding); dictionary of series by induction from the right |
| C76 | Bench.v, Img.v, HilbertC.v, ClusterC.v (no new code) | EncodeBytes, DiagramTop, HeaderTop | exact outputs of the encoders (C13, C20, C26, C43, C44) are bytes; then C65 and C51; the dimensions come first in what is written and are found again |
| C77 | HilbertC.v, ClusterC.v, Kmeans.v (no new code) | BestProofs, BestTop | parabola around the mean per channel; grouping of pixels by decoded colour; exchange argument for nearest assignments |
| C78 | HilbertC.v (no new code) | DistProofs, DistTop | exact f64 means and distances of runs of one colour; greedy runs are determined by the joining test; largest possible distance; counterexamples by computation |
| C79 | Dict.v, Back.v (no new code) | ReadmeProofs | dictionary after i pairs is known exactly, greedy parse follows; literal runs are tested at powers of two, one of which lies in the second copy |
| C80 | Images.v | ImagesProofs, ImagesTop | invariant of all interleavings: files that are no target keep their contents, so each task opened the initial image; runs constructed for the refutations |
| C81 | MakeGraph.v | MakeProofs | closed sets of targets that cannot create given files; inversion of the only derivations; derivations built for what is enough |
| C82 | Dumper.v | DumperProofs, CsvTop | induction over files and paths with a frame condition (files of other names and methods keep their contents); a run on a full disk for the refutation |
| C83 | CsvText.v | CsvProofs, CsvTop | the reader's state after each field and record; digits need no quotation marks; composed with C68 |
| C84 | BenchDisk.v | BenchDiskProofs, BenchDiskTop | the machine of C50 with failing writes; invariant on lock, flag, accepted rows, and lost records; a run without losses is one of C50 |
| C85 | Experiments.v | ExperimentsProofs, ExperimentsTop | dictionaries that count, stable sorting by count; columns of a dump from C83; dimensions and their names are in bijection |
| C86 | RepoTests.v | RepoTestsProofs | the four Huffman trees that any heap can give; lists of at most two neighbours can be sorted in one way; C22's independence of the capacities; then computation |
| C87 | Huf.v, HufShapeSpec.v | HufShape, HufShapeTop, HufReadme | invariant of the merging loop: siblings merged so far are listed by weight and no tree in the heap is lighter than a child of a root; Fibonacci induction on fair trees; exchange of two codes against C13; all optimal codes cost the same |
| C88 | KmeansSays.v, KmeansSaysSpec.v, KmeansCutSpec.v | KmeansSaysProofs, KmeansSaysRun, KmeansSaysTop, KmeansSaysCases, KmeansCut | loop invariant: counters equal counts over the points done so far; erasure of the output, bind by bind; lists never have k entries, so u64 counters do not overflow |
| C89 | BenchSays.v, BenchSaysSpec.v | BenchSaysProofs, BenchSaysTop, BenchSaysCases | case analysis of one task; a shuffle is a permutation that keeps each list as a subsequence; final task states from the invariant of C84 |
| C90 | Says.v, BackSays.v, BackSaysSpec.v | BackSaysProofs, BackSaysTop, BackSaysCases | erasing the output of each function gives that of Back.v; the searches of one repetition by induction on the buffer; the rest as the parse of C19 |
| C91 | HilbertSays.v, HilbertSaysSpec.v | HilbertSaysProofs, HilbertSaysCases | erasure; induction on the greedy runs; the decoder's lines by the cases of C73 |
| C92 | DictSays.v, DictImgSays.v, DictSaysSpec.v | DictSaysProofs, DictSaysTop, DictImgProofs, DictSaysCases | erasure; the lines printed so far are the full contents of the trie, an invariant of insertion; a content is full exactly if its place is crowded |
| C93 | HufSays.v | HufSaysProofs, HufSaysTop | erasure; an abort of the symbol loop can only come from the bit writer, whose bytes are known (C15) |
| C94 | CodecSays.v, BenchTalk.v, BenchTalkRun.v, CodecSaysSpec.v, BenchTalkSpec.v | CodecSaysProofs, BenchTalkProofs, BenchTalkCases, BenchTalkRunProofs, BenchTalkRunCases | composition of C88 and C90-C93 through the dispatch of src/codec.rs; case analysis of one benchmark task; erasure of a shuffle is a shuffle |
| C95 | Kmeans.v, ClusterC.v, ClusterSpec.v | VoronoiEnd | the general outcome lemma of KmeansTotal, with distances shown finite and not negative in floating point; a point at distance zero from its centroid never moves |

## Trusted base

* **Kernel**: Coq 8.16.1's kernel, including `vm_compute` (used for witnesses and byte sweeps). No
  `native_compute`, no plugin beyond those loaded by the standard library, no kernel check switched off.
* **Libraries**: Coq's standard library and Flocq 4.1.0 (`BinarySingleNaN` for binary64). Flocq adds no
  axiom of its own, but its real-number proofs rest on the standard library's reals.
* **Axioms**: there are none of ours. `Print Assumptions` follows every theorem in `Props*.v`:

  (a) *Closed under the global context* (225 theorems):
  * PropsAccept.v: C73_hufman, C73_depth, C73_delta, C73_rle, C73_hilbert_zip, C74_accepts, C74_debug_nearest
  * PropsBack.v: C22_roundtrip, C23_abort, C23_short_inputs, C23_no_larger_bound, C23_constant, C24_capacities, C25_ring, C26_index, C27_longest_match, C01_symbol_roundtrip, C02_symbol_canonical, C05_symbol_short_write, C28_symbol_writes, C28_symbol_roundtrip, C28_symbol_outcomes, C28_truncated, C29_image_literals, C29_small_images, C29_one_colour
  * PropsBackSays.v: C90_silent, C90_output, C90_symbols, C90_outcome, C90_image
  * PropsBench.v: C50_table, C50_always, C50_panic, C50_progress, C50_terminates
  * PropsBest.v: C77_weighted_mean, C77_position_mean
  * PropsBit.v: C06_pack_of_bits, C06_bits_of_pack, C06_pack_only_eight, C06_pack_refuses, C06_layout, C06_mask, C07_session, C07_session_crash, C08_bit_array, C08_len, C09_lsb_aligned, C09_lsb_unaligned_byte_aborts, C09_lsb_flush_loses_bits, C09_lsb_flush, C09_lsb_session_refuted, C09_lsb_sessions
  * PropsCluster.v: C01_color_pos, C02_color_pos, C03_color_pos, C03_color_pos_no_panic, C05_color_pos, C44_decode_release, C44_size, C44_truncated, C44_no_centroids, C44_decode_debug, C44_wide_refuted, C45_weighted_mean, C45_position_mean, C45_one_point
  * PropsCodec.v: C30_exact_runs, C31_hufman_lossless, C31_hufman_empty, C32_zip_dict, C32_zip_back, C32_zip_back_outcome, C34_delta_lossless, C34_differences, C34_delta_empty, C35_decoded_opaque, C35_alpha, C36_mean, C38_dimensions_cut, C38_hufman_cut, C38_delta_cut, C54_zip_dict, C54_zip_back, C53_small_square, C53_large_square, C53_overflow, C53_largest_refuted
  * PropsDiagram.v: C75_dumps, C75_images
  * PropsDict.v: C17_encodes, C17_roundtrip, C18_trie_is_map, C19_greedy, C20_size, C21_foreign_data, C21_stack_overflow
  * PropsDictSays.v: C92_output, C92_number, C92_image
  * PropsDisk.v: C84_always, C84_run, C84_no_failure, C84_progress, C84_terminates
  * PropsDumper.v: C82_ends, C82_succeeds, C82_files, C82_abort, C82_any, C82_complete_refuted, C83_table, C83_dump
  * PropsExperiments.v: C85_channels, C85_channels_refuted, C85_distribution, C85_distribution_exists, C85_dimensions_fail, C85_dimensions, C85_colours, C85_colour_bars, C85_colour_bars_refuted
  * PropsForeign.v: C64_foreign_data, C65_decoded_is_image, C65_short_data, C65_huge_dimensions, C65_never_aborts_refuted, C66_zip_back, C66_zip_dict
  * PropsHilbertSays.v: C91_decode_silent, C91_together, C91_decode
  * PropsHuf.v: C01_tree_roundtrip, C02_tree_canonical, C03_tree_truncated, C03_tree_no_panic, C05_tree_short_write, C05_tree_bad_char, C10_frequencies, C11_roundtrip, C12_complete_prefix_code, C13_optimal, C14_empty_aborts, C14_never_aborts, C15_crash_points, C16_output_size, C16_single_symbol
  * PropsHufSays.v: C93_silent, C93_once, C93_abort, C93_when, C93_image_silent, C93_image
  * PropsKmeans.v: C40_initial_chunks
  * PropsLoud.v: C89_silent, C89_order, C89_nothing_else
  * PropsPattern.v: C72_full_match, C72_groups, C72_alternatives_refuted, C72_two_alternatives, C72_unchecked, C72_guarded
  * PropsPrs.v: C46_calls, C46_unique, C46_deep_refuted, C46_all, C47_never_accepted, C47_aborts_refuted, C47_rejects_refuted, C47_outcomes, C47_debug, C47_release, C47_slices, C47_boundaries, C48_first_success, C48_all_failed, C48_aborts
  * PropsReadme.v: C79_dict_pairs, C79_back_literal, C79_back_example_refuted, C79_back_triple, C79_back_twice_refuted
  * PropsSer.v: C01_roundtrip, C01_roundtrip_list, C02_canonical, C03_truncation, C03_never_panics, C04_values_to_bytes, C04_bytes_to_values, C04_bad_value_aborts, C05_short_write, C05_bad_char, C05_bad_char_writes_nothing
  * PropsShape.v: C87_siblings, C87_zero_is_lighter, C87_lengths, C87_hufman_depth, C87_delta_depth, C87_readme_tree_refuted
  * PropsSize.v: C71_hufman, C71_delta, C71_zip_back, C71_zip_images
  * PropsSpecial.v: C58_dump, C58_green_column_refuted, C59_inside, C59_exact, C59_aborts, C59_collide, C59_distinct_refuted
  * PropsTalk.v: C94_decode, C94_run, C94_run_silent, C94_run_order, C94_nothing_else, C94_statistics
  * PropsTests.v: C86_prs, C86_bit, C86_huf, C86_dict, C86_back
  * PropsTrie.v: C67_statistics, C67_drop

  (b) depend on exactly four axioms of the standard library,
  `ClassicalDedekindReals.sig_forall_dec`, `ClassicalDedekindReals.sig_not_dec`,
  `Classical_Prop.classic` and `FunctionalExtensionality.functional_extensionality_dep`
  (140 theorems; all of them mention binary64 numbers, directly or through the k-means or benchmark model):
  * PropsBench.v: C51_mean_square, C51_any_size, C51_shape_refuted, C51_empty, C51_wide, C52_ratio, C52_overflow, C56_passes_check, C56_encodes, C56_record_right
  * PropsBest.v: C77_runs, C77_clusters, C77_clusters_best_refuted, C77_assignment
  * PropsBytes.v: C76_bytes, C76_decoded, C76_header, C76_dimensions, C76_error
  * PropsCluster.v: C43_reduced_image, C43_too_few_colours, C44_release, C44_encode_debug
  * PropsCodec.v: C33_hilbert_lossless, C33_all_pixels_needed, C36_approx_runs, C36_extreme_distances, C37_error_exceeds_d_refuted, C38_hilbert_returns_image_refuted, C54_hilbert_rle, C54_hilbert_zip
  * PropsDiagram.v: C75_tables, C75_series, C75_scatter, C75_boxplot, C75_sorted, C75_lossless, C75_png_ratio, C75_drawable_refuted
  * PropsDictSays.v: C92_hilbert
  * PropsDisk.v: C84_complete_refuted
  * PropsDist.v: C78_below_one, C78_below_gap, C78_grey, C78_from_442, C78_larger_distance_smaller_file_refuted, C78_larger_distance_larger_error_refuted
  * PropsDumper.v: C83_run
  * PropsEnd.v: C61_ends_refuted, C61_one_cluster, C62_cluster_per_colour, C63_outcomes, C63_two_clusters, C63_tolerance, C63_enough_colours_refuted
  * PropsHilbertSays.v: C91_silent, C91_rle
  * PropsImages.v: C80_independent, C80_only_outputs, C80_saved, C80_ends, C80_lossless, C80_any_order_refuted, C80_inputs_kept_refuted, C80_shared_refuted
  * PropsKmeans.v: C39_every_point_once, C39_every_pass, C40_refused, C41_lists, C41_at_most_twice, C41_full_at_first, C42_nearest, C42_full_lists, C42_two_clusters_full, C55_stops_early_refuted, C55_stable_refuted
  * PropsLoud.v: C89_outcome, C89_lines, C89_run, C89_count, C89_quiet, C89_bits, C89_bytes_refuted, C89_attributed_refuted
  * PropsMake.v: C81_without_voronoi, C81_without_zip_back, C81_lossless, C81_diagrams, C81_all
  * PropsProgram.v: C68_any_run, C68_lossless_run, C68_dump_run, C68_dump_unreadable, C69_fixed, C69_cluster_colors, C69_approx, C69_voronoi_refuted
  * PropsSays.v: C88_silent, C88_pass, C88_neighbours, C88_run, C88_cut, C88_empty, C88_watermark_refuted
  * PropsSelect.v: C49_selection, C49_all, C49_cluster_colors, C49_voronoi, C49_too_big, C49_usage_refuted, C49_not_ascii, C57_dispatch, C57_otherwise_aborts
  * PropsSize.v: C71_runs, C71_runs_least, C71_runs_worst, C71_hilbert_zip
  * PropsSpecial.v: C60_table_file
  * PropsTalk.v: C94_silent, C94_success, C94_quiet, C94_stderr, C94_bench, C94_order, C94_record, C94_glued, C94_tasks
  * PropsTests.v: C86_kmeans, C86_cluster
  * PropsTrie.v: C67_density, C67_encoder
  * PropsVoronoiEnd.v: C95_outcomes, C95_two_clusters, C95_wrong_number, C95_one_cluster, C95_cluster_per_pixel
  * PropsWriter.v: C70_cut_output, C70_same_data, C70_no_flush, C70_error_returned_refuted

* `coqchk -o` lists, besides these, the opaque constants of sealed modules inside the standard library
  (`Rdefinitions.RbaseSymbolsImpl.*`, `Rdefinitions.RinvImpl.*`, `ssrunder`'s `Under_rel.*`). They are not
  assumptions of any theorem here: `Print Assumptions` sees through the sealing.
* **The reading of the Rust source**: the model was written by hand from /repo; nothing was compiled or
  run. Every definition cites the lines it models.

### Modelled

| source | what |
|--------|------|
| src/ser.rs | every `Serialize`/`Deserialize` implementation, `SerStream`, `DeserStream` |
| src/bit.rs | `Bit`, `BitArray`, `BitOrder`, `IoBitWriter`, bit iterators, both orders |
| src/huf.rs | frequency heap, tree building, code table, tree (de)serialisation, encoder, decoder |
| src/utils.rs | `count_freqs` |
| src/zip/dict.rs | `TrieMap`, its content nodes, encoder loop, lazily recursive decoder |
| src/zip/back.rs | ring buffer, positional index, symbols, encoder, decoder |
| src/codec.rs | `Codec` selection order, `is_lossless`, `name`s |
| src/codec/{hufc,zipc,hilbertc,clusterc}.rs | all codecs: encode, decode, names, `FromStr` |
| src/hilbert.rs | `linearize_small`, `linearize_large`, `linearize_rect` up to the curve itself |
| src/kmeans.rs | the whole algorithm incl. neighbour lists, random refills, floating-point cut-offs |
| src/geom.rs | both distances in binary64 |
| src/prs.rs | `fun_call`, alternatives, `matches_fully` incl. alternatives at top level, the unchecked access |
| src/bench.rs | parallel table writing, error and ratio computation, record contents |
| src/main.rs | argument dispatch, `--special` traversal dump, output file naming |
| src/main.rs, src/bench.rs | whole runs: arguments to files left behind (Program.v) |
| src/bench.rs | the image files shared by the tasks: opening, saving of wrong images (Images.v) |
| src/bench.rs, src/main.rs | the table with refused writes (BenchDisk.v) |
| src/main.rs, crate csv | effects of a dump in order, with failing files (Dumper.v); texts of csv files (CsvText.v) |
| scripts/experiments | data shown by the three scripts, and their exceptions (Experiments.v) |
| src/*.rs, unit tests | all 84 tests (RepoTests.v); since they pass in the model for all values of the arguments that stand for the environment, they are also a check of the model against the authors' expectations |
| Makefile | every rule that runs the program: command line, recipe on the file system; all rules but `clean` as a dependency graph (MakeGraph.v) |

### Not modelled, or simplified

* Running time, memory exhaustion (except the capacity check of image buffers), the size of the machine
  stack. Where recursion depth matters (zip-dict decoder) the model has an explicit stack bound and C21
  says when it is exceeded.
* Text printed on stdout/stderr, except by clustering (KmeansSays.v), the benchmark (BenchSays.v), zip-back (BackSays.v),
  hilbert(rle) and the Huffman decoder (HilbertSays.v), the Huffman encoder (HufSays.v) and zip-dict (DictSays.v, DictImgSays.v), where all of it is modelled up to the text around
  the figures of `print_stats` (src/zip/dict.rs:387-398) and of the error of src/huf.rs:145: all codecs together and their place in the output of the benchmark are in CodecSays.v and BenchTalk.v; left is `measure` (src/bench.rs:113-121), which is not called. Nothing that is printed can fail to be printed. `utils::default_array` (src/utils.rs:17-37) is modelled by its result, an array of
  default values.
* The `image` crate: decoding and encoding of image files. An image is its width, height and row-major
  list of RGBA pixels. The `zhang_hilbert` curve: any list of positions; bijectivity is a hypothesis where needed.
* The regex crate's *parser*: the two patterns are written down as syntax trees; matching is modelled
  (leftmost-first). Its `\d` class is an argument containing 0-9 and otherwise arbitrary non-ASCII characters.
  `f64::from_str` and `Display for f64` are arguments.
* I/O errors of the benchmark's table: in Bench.v and Program.v writes to it are taken as infallible and its
  creation as successful; BenchDisk.v (C84) has refused writes, creation, and the final flush, on the level of the rows that
  the csv writer accepts (for dumps failures are modelled up to the text, Dumper.v). Quoting by the csv crate is modelled after its source (CsvText.v),
  the shortest decimal form of an f64 (crate ryu) is an argument. A panic in a rayon task is propagated after other tasks may or may not have run; the writer
  is flushed on drop.
* `powi(2)` is taken as `x * x`; the start value of an `f64` sum (`0.0` or `-0.0`) is a parameter.
* In Program.v a dump is all or nothing; Dumper.v has the files that a dump leaves when it aborts, and failing
  file systems (C82).
* A failing `output file` creation in `measure_one` is an error in the code path but not a panic in the model.
* The Python scripts: pandas reads back the numbers the csv crate wrote (an argument, with its contract as a
  hypothesis), numeric division and the mean of a column are arguments with contracts in DiagramSpec.v. Colours, labels,
  layout and pixels of the diagrams are not modelled: a diagram is the data handed to matplotlib. In Experiments.v pandas reads
  as RFC 4180 says and turns columns of digits into numbers, the order of equal counts in `value_counts` is left open, and the
  box plots of png_stats.py (file sizes, colours) are only modelled for the number of colours of an image.
* make: only the existence of files counts; whether an existing target is up to date is left open, intermediate files are
  not deleted, and the rules built into make do not apply. A file system is a function from file numbers to images
  (Images.v); which path leads to which file is an argument, and does not change during a run.
* 32-bit targets: usize is 64 bits throughout.

## Deviations and findings

Places where the code does not do what a user would expect; each is a theorem.

| where | finding | theorem |
|-------|---------|---------|
| src/prs.rs `fun_call` | a character index is used as byte index: no text with a non-ASCII character nested below 65536 is ever accepted, "é(b)" aborts, "a(é)" is rejected; which texts abort is decided exactly | C47_never_accepted, C47_outcomes, C47_aborts_refuted, C47_rejects_refuted |
| src/prs.rs `fun_call` | the u16 nesting counter wraps in release builds: "a" followed by 65536 "(" counts as balanced; debug builds abort. Exactly such texts are accepted in excess, among them non-ASCII ones whose pieces are cut at the wrong places ("ééxx(b,(((…" gives name "éé" and argument "x") | C46_deep_refuted, C46_all, C47_debug, C47_release |
| src/codec/clusterc.rs `from_str` | `\d` matches the digits of all scripts, `usize::from_str` only ASCII: "voronoi(٣)voronoi(5)" is rejected although voronoi(5) is in it | C49_all, C49_all_case |
| src/prs.rs `fun_call` | consequence of the wrapping counter: in release builds "zip(dict,(((…" selects zip(dict) | C49_all_case |
| src/main.rs `usage` | advertises `reduce-colors`, which is rejected | C49_usage_refuted |
| src/codec/clusterc.rs `from_str` | patterns are not anchored: "hilbert(ccol(5))" selects cluster-colors 5; a number above 2^64-1 falls through to the next codec | C49_selection, C49_too_big |
| src/huf.rs, src/codec/hufc.rs | empty images abort in hufman and delta | C31_hufman_empty, C34_delta_empty, C14_empty_aborts |
| src/huf.rs | decoding a single-symbol stream never ends by itself | C16_single_symbol |
| src/bit.rs | the LSB-first writer loses bits on flush and aborts on unaligned bytes | C09_* |
| src/zip/dict.rs | decoder recursion overflows any stack on runs of ffff ffff pairs | C21_stack_overflow |
| src/zip/back.rs | aborts on long repetitive inputs: every constant input of 65536 bytes, one-colour images of 8938 pixels or more | C23_constant, C29_one_colour |
| src/zip/back.rs | a truncated literal run panics | C28_truncated |
| src/codec/*.rs | forged dimensions (3*w*h >= 2^63) panic | model of image allocation, Img.v |
| src/codec/hilbertc.rs | approximate RLE: a pixel can be off by more than 5 times d | C37_error_exceeds_d_refuted |
| src/codec/hilbertc.rs | streams cut inside a run or a pair of codes abort instead of returning None or an image | C38_hilbert_returns_image_refuted, C54_* |
| src/hilbert.rs | `linearize_small` does not take the largest square that fits, although its comment says so | C53_largest_refuted |
| src/kmeans.rs | the final assignment need not be to nearest centroids (neighbour lists are truncated) | C55_* |
| src/codec/clusterc.rs | voronoi: debug builds abort on every image with two or more pixels, in both directions; distances wrap beyond 46341 pixels; a stream with no centroids panics the decoder | C44_encode_debug, C44_decode_debug, C44_wide_refuted, C44_no_centroids |
| src/bench.rs | the reported ratio is 8 times too small; debug builds abort from 178,956,971 pixels on | C52_ratio, C52_overflow |
| src/bench.rs | the error metric ignores the shape, is NaN for empty images and wraps w*h | C51_shape_refuted, C51_empty, C51_wide |
| src/main.rs | the `--special` CSV headings blue and green are exchanged | C58_green_column_refuted |
| src/main.rs, src/bench.rs | outputs of input images with the same base name overwrite each other | C59_distinct_refuted |
| src/kmeans.rs `cluster` | because means are rounded down, two clusters can exchange colours for ever: encoding a certain 129-pixel image with cluster-colors(2) never returns for some hash orders; a debug build aborts after 2^31 passes (overflow of the i32 `i` that is only printed) | C61_ends_refuted |
| src/kmeans.rs `check_enough_active_clusters` | random refills can leave two clusters empty, and then encoding aborts although the image has enough colours | C63_enough_colours_refuted |
| src/zip/back.rs `decode_next`, src/codec/*.rs `decode` | malformed data aborts the program instead of returning None: 8 bytes are enough for every codec | C65_never_aborts_refuted, C64_foreign_data |
| src/zip/back.rs `Decoder::next` | a symbol of length zero silently ends the data; everything after it is lost | C64_foreign_data |
| src/zip/dict.rs `print_stats` | for an input of at most one byte the child density is 0/0 and "NaN%" is printed | C67_encoder |
| Makefile:77-79 | the voronoi rule copies its table to cluster-colors_N.csv.bak: its own target is never made, and the diagram for cluster-colors shows voronoi results | C69_voronoi_refuted |
| src/huf.rs:36-38 `encode_all` | an output error while writing the payload aborts the program (all Huffman-based codecs) | C70_error_returned_refuted, C15 |
| src/prs.rs `matches_fully` | the anchors are put around the text of the pattern, so a pattern with top-level alternatives is not matched in full ("rle\|zip" matches "rlex"); no caller uses such a pattern | C72_alternatives_refuted |
| src/codec/hilbertc.rs `encode` | the worst case of run-length coding is four times the raw size, because every colour carries an 8-byte length | C71_runs_worst |
| src/codec/hilbertc.rs `decode` | the delta, rle and zip decoders never report malformed data of 8 or more bytes: they abort, or (delta, zip) return an image whose remaining pixels are silently black | C73_delta, C73_rle, C73_hilbert_zip |
| src/huf.rs:324-345 `deserialize` | reading a tree recurses once per byte of a file of ones, so a file of some megabytes overflows the stack | C73_depth |
| src/codec/clusterc.rs `decode` | in release builds a point 65536 away counts as distance 0, so a malformed or very large file shows wrong colours | C74_accepts, C74_cases, C44 |
| src/bench.rs with scripts/diagrams | a benchmark without any successful image leaves an empty file instead of a table with only a header; both diagram scripts then abort on it | C75_drawable_refuted |
| scripts/diagrams/boxplot.py:33 | aborts if no table is lossless (nothing to unzip) | C75_boxplot |
| src/codec/clusterc.rs `mean` | means are rounded down, not to nearest: the palette is up to 3 per pixel worse than the best one (three pixels 0, 1, 1 become 0) | C77_clusters_best_refuted |
| src/codec/hilbertc.rs:204-246 | a larger distance can give a larger file and a worse image: red channel 4, 11, 17, 9, 16 has 2 runs with distance 6 and 3 with distance 7, and total squared error 45 against 50 | C78_larger_distance_smaller_file_refuted |
| src/zip/back.rs `more_data` | literal runs double before the next search, so repetitions between two powers of two are missed: 0..128 twice is stored as 258 literal bytes | C79_back_twice_refuted |
| README.md:72-90 | the zip-back example copies 2 bytes, but MIN_REP is 6: the program writes the 8 bytes as one literal | C79_back_example_refuted |
| README.md:118-134 | the hilbert-rle-approx example is right for one channel; for grey pixels distance 1 joins nothing, because a step of 1 is at distance root 3 | C78_grey |
| src/bench.rs:53 | wrong images are saved as output/<stem>.png: an input in output is overwritten, other tasks may read the overwritten image, and inputs with the same stem overwrite each other's | C80_inputs_kept_refuted, C80_any_order_refuted, C80_shared_refuted |
| Makefile:69-71 | `output/%.cp` needs `output/%`, which no rule makes: from a fresh checkout there is no way to `make diagrams` | C81_without_zip_back |
| Makefile:77-79 | no rule ever makes a voronoi backup, so the lossy diagram needs one made by hand | C81_without_voronoi |
| Makefile:2-18 | `data/DIV2K_valid_HR` does not depend on the archive it unpacks: `make` fails on a fresh checkout | C81_all |
| src/main.rs:37-40 | the dump never flushes its csv writers, whose destructor ignores errors: on a full disk rows are lost and the program still reports success | C82_complete_refuted |
| src/bench.rs:68-76 | a task whose write fails prints the error and the run goes on: the record is missing from the table and the program still reports success | C84_complete_refuted |
| scripts/experiments/png_stats.py:55 | `sorted_values.index(1)` raises ValueError unless some dimensions occur exactly once | C85_dimensions_fail |
| scripts/experiments/png_stats.py:75 | `np.unique` without an axis: the colour distribution counts channel values instead of colours | C85_colour_bars_refuted |
| scripts/experiments/hilbert_channels.py:11-12 | the green curve shows the blue channel and vice versa (exchanged headings of the dump) | C85_channels_refuted |
| src/kmeans.rs tests | every k-means test ends in the first pass: the loop over passes, moved points and empty clusters are not tested | C86_kmeans |
| README.md:186-200 | the tree shown for delta puts the heavier half on the left twice (-1 and 1 before 2 and 3; 2 before 3), which the program never does; differences and number of bits are right | C87_readme_tree_refuted |
| src/kmeans.rs:277-281 | the watermark of a neighbour list is overwritten by every point of the cluster, so it is that of the last point, not the highest: lists are cut below what points have just read | C88_watermark_refuted |
| src/bench.rs:30-31, 34-35, 58, 108 | error lines other than that of a failed decoding do not name the image, and threads print in any order: which image failed cannot be told from the output | C89_attributed_refuted |
| src/bench.rs:41-42 | the raw size is printed with a unit of bytes but is the number of bits | C89_bytes_refuted |
| src/zip/back.rs:67, 78, 236, 312 | for every image the encoder writes its whole parse to standard output; before an abort the length of the symbol that cannot be written is announced as if it were | C90_outcome |
| src/codec/hufc.rs:31 | the test before the line "Reached the end of the stream" is always true, so it tells nothing; truncated dimensions and trees fail without a line | C91_together, C91_decode |
| src/zip/dict.rs:537 | debugging output: every compression, even of nothing, prints at least one "Converting Content::Partial into Content::Full!" to standard output | C92_output |
| src/huf.rs:145 | an output error while the symbols are written is printed and dropped; the caller then panics on `None` although it could return the error, as it does two lines before and after | C93_when, C15_crash_points |
| src/zip/back.rs:67, 78, 312 | the marks of zip(back) do not end their line, so in its benchmark no compressed size is at the beginning of a line | C94_glued |
