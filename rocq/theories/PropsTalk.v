(** * C94: what the codecs print, and everything that is printed for one image.  Statements only; proofs are in
    CodecSaysProofs.v, BenchTalkProofs.v and BenchTalkRunProofs.v. *)
From Flocq Require Import BinarySingleNaN.
From Coq Require Import String.
From Verif Require Import Base Prs Huf HufSpec HufTop Img Float HilbertC Kmeans KmeansSpec ClusterC ClusterExact Select Bench BenchSpec CodecSpec CodecCases Special BenchDisk BenchSays Writers KmeansCases
  Says BackSays HilbertSays TrieStats DictSays HufSays KmeansSays CodecSays CodecSaysSpec CodecSaysProofs BenchTalk BenchTalkRun BenchTalkSpec BenchTalkProofs BenchTalkCases BenchSaysSpec BenchSaysCases BenchTalkRunProofs BenchTalkRunCases.
Close Scope string_scope.
Open Scope list_scope.

(** Printing changes nothing, for every writer. *)
Theorem C94_silent : forall E nodes c im w, img_ok im -> env_ok E im -> talk_ok E nodes c im ->
  snd (encode_says E nodes c im w) = option_map (fun m => m w) (any_write E c im).
Proof. exact encode_silent. Qed.
Print Assumptions C94_silent.
(** The form of what is printed by an encoding into a vector that succeeds *)
Theorem C94_success : forall E nodes c im, img_ok im -> env_ok E im -> talk_ok E nodes c im ->
  forall w, snd (encode_says E nodes c im vec_writer) = Some (Ok tt, w) -> printed c im (fst (encode_says E nodes c im vec_writer)).
Proof. exact encode_prints. Qed.
Print Assumptions C94_success.
(** Only hufman and delta print nothing. *)
Theorem C94_quiet : forall E nodes c im w, img_ok im -> env_ok E im -> talk_ok E nodes c im ->
  snd (encode_says E nodes c im vec_writer) = Some (Ok tt, w) -> (fst (encode_says E nodes c im vec_writer) = [] <-> c = Hufman \/ c = Delta).
Proof. exact encode_quiet. Qed.
Print Assumptions C94_quiet.
(** Encoders use standard output, except for one line before an abort of a codec with a Huffman coder; whatever image, environment and writer. *)
Theorem C94_stderr : forall E nodes c im w,
  Forall (fun l => on_stderr l = false) (fst (encode_says E nodes c im w))
  \/ exists o w', encode_says E nodes c im w = (o ++ [FromHuffman CodeLost], Some (Panic, w')) /\ Forall (fun l => on_stderr l = false) o
     /\ match c with Hufman | Delta | ClusterColors _ => True | _ => False end.
Proof. exact encode_stderr. Qed.
Print Assumptions C94_stderr.
(** Decoders print nothing, except for hufman and cluster-colors on data that they reject. *)
Theorem C94_decode : forall E c data, snd (decode_says E c data) = any_decode E c data
  /\ (fst (decode_says E c data) = []
      \/ (decode_says E c data = (map FromHilbert [SymbolFailed; StreamEnded], Some Err) /\ match c with Hufman | ClusterColors _ => True | _ => False end)).
Proof. exact (fun E c data => conj (decode_silent E c data) (decode_lines E c data)). Qed.
Print Assumptions C94_decode.

(** One image of the benchmark: without the lines of the codec this is C89. *)
Theorem C94_bench : forall p zero E E' nodes c path o saves,
  (forall im, o = inl im -> img_ok im /\ env_ok E im /\ talk_ok E nodes c im) ->
  let '(said, r) := measure_talk p zero E E' nodes c path o saves in
  measure_says p zero (any E E' c) path o saves = option_map (fun r => (ours said, r)) r.
Proof. exact talk_erased. Qed.
Print Assumptions C94_bench.
(** Where the lines of the codec are: those of the encoder after the first, those of the decoder just before the error they belong to. *)
Theorem C94_order : forall p zero E E' nodes c path o saves said r, measure_talk p zero E E' nodes c path o saves = (said, r) ->
  exists a o2 b, said = Ours (Processing path) :: map Codecs (match o with inl im => fst (encode_says E nodes c im vec_writer) | inr _ => [] end)
       ++ map Ours a ++ map Codecs o2 ++ map Ours b
  /\ (o2 = [] \/ (o2 = map FromHilbert [SymbolFailed; StreamEnded] /\ b = [Failure (NoDecode path)] /\ r = Some Err)).
Proof. exact talk_order. Qed.
Print Assumptions C94_order.
(** An image with a record *)
Theorem C94_record : forall p zero E E' nodes c path im saves said r, img_ok im -> env_ok E im -> talk_ok E nodes c im ->
  measure_talk p zero E E' nodes c path (inl im) saves = (said, Some (Ok r)) ->
  exists o size raw saved, printed c im o
  /\ said = Ours (Processing path) :: map Codecs o ++ [Ours (CompressedSize size); Ours (RawSize raw)] ++ saved
  /\ (saved = [] \/ (any_is_lossless c = false /\ exists file, saved = [Ours (SavedTo file)])).
Proof. exact talk_record. Qed.
Print Assumptions C94_record.
Example C94_case : img_ok pic /\ env_ok talkative pic
  /\ Forall (fun c => talk_ok talkative 60 c pic) [Hufman; Delta; Zip ZDict; Zip ZBack; Hilbert (RLE (f64_of_N 0)); Hilbert MZip; ClusterColors 2; VoronoiCluster 1]
  /\ map heard_for [Hufman; Delta; Zip ZDict; Zip ZBack; Hilbert (RLE (f64_of_N 0)); Hilbert MZip; ClusterColors 2; VoronoiCluster 1]
  = [framed 34 []; framed 40 [];
     framed 48 (map FromDict [Converting; TrieStats (mkStats 23 22 22 267 267)]);
     framed 46 (map FromBack ([Searched 0; Searched 0; Searched 0; Searched 0; Searched 0; Searched 4; Extra 6 6; Searched 4; Lit 32; Rep 7]
                              ++ [Searched 0; Searched 3; Extra 6 6; Searched 3; Extra 11 6; Lit 2; Rep 11]));
     framed 44 [FromHilbert UsingExact];
     framed 44 (map FromDict [Converting; TrieStats (mkStats 22 21 21 264 264)]);
     framed 34 (map FromClustering (moved 2));
     framed 35 (map FromClustering (moved 4)) ++ [Ours (SavedTo (txt "output/pic.png"))]].
Proof. exact (conj pic_ok (conj talkative_ok (conj talkative_talks heard_all))). Qed.

(** With zip(back) the compressed size is not on a line of its own: it comes right after a mark that does not end its line. *)
Theorem C94_glued : forall p zero E E' nodes path im saves said r, img_ok im -> env_ok E im ->
  measure_talk p zero E E' nodes (Zip ZBack) path (inl im) saves = (said, Some (Ok r)) ->
  exists a m size b, said = a ++ [Codecs (FromBack m); Ours (CompressedSize size)] ++ b /\ forall t, mark_text m <> t ++ [10%N].
Proof. exact talk_glued. Qed.
Print Assumptions C94_glued.

(** A run: without the output of the codecs it is one of C89, with the tasks of C89, *)
Theorem C94_run : forall jobs creates flushes r out lost log, talk_run jobs creates flushes r out lost log ->
  loud_run (map our_job jobs) creates flushes r out lost (our_pieces log).
Proof. exact talk_run_ours. Qed.
Print Assumptions C94_run.
Theorem C94_tasks : forall p zero E E' nodes c opens saves paths jobs, talking p zero E E' nodes c opens saves paths jobs ->
  (forall path im, In path paths -> opens path = inl im -> img_ok im /\ env_ok (E path) im /\ talk_ok (E path) nodes c im) ->
  tasks p zero (fun q => any (E q) (E' q) c) opens saves paths (map our_job jobs).
Proof. exact talking_tasks. Qed.
Print Assumptions C94_tasks.
(** and printing does not decide which runs there are. *)
Theorem C94_run_silent : forall jobs creates flushes r out lost,
  table_run (map snd jobs) creates flushes r out lost <-> exists log, talk_run jobs creates flushes r out lost log.
Proof. exact talk_run_any. Qed.
Print Assumptions C94_run_silent.
(** The output of one image appears in its order, *)
Theorem C94_run_order : forall jobs flushes r out lost log, talk_run jobs true flushes r out lost log -> forall i j, nth_error jobs i = Some j ->
  exists ls, subsequence (flat_map pieces ls) log
  /\ (ls = fst j \/ (exists rc, snd j = Ok rc /\ In rc lost) /\ ls = fst j ++ [Ours (Failure NoWrite)] \/ In Panic (map snd jobs) /\ ls = []).
Proof. exact talk_run_order. Qed.
Print Assumptions C94_run_order.
(** and nothing else is printed. *)
Theorem C94_nothing_else : forall jobs creates flushes r out lost log, talk_run jobs creates flushes r out lost log -> forall x, In x log ->
  (exists j l, In j jobs /\ In l (fst j) /\ In x (pieces l)) \/ x = Whole (Ours (Failure NoWrite)) /\ lost <> [].
Proof. exact talk_run_lines. Qed.
Print Assumptions C94_nothing_else.
(** The statistics are eight lines; if one of them is printed, all are, in their order. *)
Theorem C94_statistics : forall jobs creates flushes r out lost log k st, talk_run jobs creates flushes r out lost log -> In (Statistic k st) log ->
  (k < 8)%nat /\ subsequence (map (fun i => Statistic i st) [0; 1; 2; 3; 4; 5; 6; 7]%nat) log.
Proof. exact talk_run_statistics. Qed.
Print Assumptions C94_statistics.
(** Example: the message about a missing file in the middle of the statistics for another one *)
Example C94_run_case : exists jobs out,
  talking Release (B754_zero false) (fun _ => talkative) (fun _ => talkative) 60 (Zip ZDict) (only pa) (fun _ => true) [pa; pb] jobs
  /\ talk_run jobs true true (Ok tt) out [] mixed /\ map fst jobs = [dict_lines; missing_lines].
Proof. exact talk_run_case. Qed.
