(** * C89: what the benchmark prints.  Statements only; proofs are in BenchSays*.v.

    [measure_says] gives the lines printed for one image and its outcome; [loud_run jobs creates flushes r out lost log]
    is a run as in C84 that prints the lines [log]. *)
From Coq Require Import String Permutation Sorted.
From Flocq Require Import BinarySingleNaN.
From Verif Require Import Base Prs Float Img CodecSpec CodecCases Select Bench BenchSpec Special Images ImagesSpec BenchDisk Program ProgramSpec PropsBench BenchSays BenchSaysSpec BenchSaysProofs BenchSaysTop BenchSaysCases.
Close Scope string_scope.
Open Scope list_scope.

(** The outcome of an image is that of the model without messages, except that without a file name there is nothing to save
    a changed image under. *)
Theorem C89_outcome : forall p zero c path o saves,
  (forall ls r, measure_says p zero c path o saves = Some (ls, r) -> measure_one p zero c path (the_image o) saves = Some r \/ (file_name path = None /\ r = Panic))
  /\ (measure_says p zero c path o saves = None <-> measure_one p zero c path (the_image o) saves = None).
Proof. exact (fun p zero c path o saves => conj (outcome_one p zero c path o saves) (outcome_none p zero c path o saves)). Qed.
Print Assumptions C89_outcome.
(** One image: which lines are printed, each at most once, in a fixed order.  There is an error line if and only if
    the image fails, and it states the reason. *)
Theorem C89_lines : forall p zero c path o saves ls r, measure_says p zero c path o saves = Some (ls, r) ->
  StronglySorted earlier ls
  /\ (forall q, In (Processing q) ls <-> q = path)
  /\ (forall n, In (CompressedSize n) ls <-> exists im data, encoded c o im data /\ n = N.of_nat (List.length data))
  /\ (forall n, In (RawSize n) ls <-> exists im data, encoded c o im data /\ sized p im /\ n = (24 * pixels im mod 2 ^ 32)%N)
  /\ (forall f, In (SavedTo f) ls <-> spoiled p zero c path o f /\ saves = true)
  /\ (forall f, In (Failure f) ls <-> reason p zero c path o saves f)
  /\ (r = Err <-> exists f, In (Failure f) ls).
Proof. exact one_lines. Qed.
Print Assumptions C89_lines.
(** Printing changes nothing about the run, and every run prints something or other. *)
Theorem C89_silent : forall jobs creates flushes r out lost,
  table_run (map snd jobs) creates flushes r out lost <-> exists log, loud_run jobs creates flushes r out lost log.
Proof. exact (fun jobs a b r out lost => conj (loud_exists jobs a b r out lost) (fun H => match H with ex_intro _ log L => loud_table jobs a b r out lost log L end)). Qed.
Print Assumptions C89_silent.
(** Runs without a panic: every path is announced once, and the error lines are in one-to-one correspondence with the
    paths that have no row in the table; each states why, also when writes are refused. *)
Theorem C89_run : forall p zero c opens saves paths jobs flushes r out lost log,
  tasks p zero c opens saves paths jobs -> loud_run jobs true flushes r out lost log -> ~ In Panic (map snd jobs) ->
  Permutation (processed log) paths
  /\ exists missing fs, Permutation (map rec_name (records out) ++ missing) paths /\ Permutation fs (failures log)
     /\ Forall2 (fun q f => reason p zero (c q) q (opens q) (saves q) f \/ f = NoWrite /\ In q (map rec_name lost)) missing fs.
Proof. exact run_messages. Qed.
Print Assumptions C89_run.
(** So counting the error lines gives the number of missing rows. *)
Theorem C89_count : forall p zero c opens saves paths jobs flushes r out lost log,
  tasks p zero c opens saves paths jobs -> loud_run jobs true flushes r out lost log -> ~ In Panic (map snd jobs) ->
  (List.length (records out) + List.length (failures log) = List.length paths)%nat.
Proof. exact run_count. Qed.
Print Assumptions C89_count.
(** Every run: the lines of one image appear in their order, none if another image panics before it starts; *)
Theorem C89_order : forall jobs flushes r out lost log, loud_run jobs true flushes r out lost log -> forall i j, nth_error jobs i = Some j ->
  exists ls, subsequence ls log
  /\ (ls = fst j \/ (exists rc, snd j = Ok rc /\ In rc lost) /\ ls = fst j ++ [Failure NoWrite] \/ In Panic (map snd jobs) /\ ls = []).
Proof. exact run_order. Qed.
Print Assumptions C89_order.
(** and nothing else is printed. *)
Theorem C89_nothing_else : forall jobs creates flushes r out lost log, loud_run jobs creates flushes r out lost log -> forall l, In l log ->
  (exists j, In j jobs /\ In l (fst j)) \/ l = Failure NoWrite /\ lost <> [].
Proof. exact run_lines. Qed.
Print Assumptions C89_nothing_else.
(** Lossless codecs on images as in C68, when no write is refused: nothing on the error stream, and three lines per
    record of the table, with the size in it. *)
Theorem C89_quiet : forall p sg opens saves E c paths, any_is_lossless c = true -> (c = Zip ZBack -> Forall (tiny (fun q => the_image (opens q))) paths) ->
  Forall (fine (fun q => the_image (opens q)) E) paths ->
  exists f0, forall E', (forall path, In path paths -> e_scan (E' path) = e_scan (E path) /\ (2 <= e_stack (E' path))%nat /\ (f0 <= e_fuel (E' path))%nat) ->
  forall jobs flushes r out log, tasks p (B754_zero sg) (fun q => any (E q) (E' q) c) opens saves paths jobs -> loud_run jobs true flushes r out [] log ->
  filter to_stderr log = [] /\ exists l, out = table l /\ Permutation log (flat_map (three_lines opens) l).
Proof. exact quiet. Qed.
Print Assumptions C89_quiet.
(** The raw size is printed as a number of bytes; it is the number of bits of the pixels. *)
Theorem C89_bits : forall p zero c path im saves ls r n, measure_says p zero c path (inl im) saves = Some (ls, r) -> In (RawSize n) ls ->
  (24 * pixels im < 2 ^ 32)%N -> n = (8 * (3 * pixels im))%N.
Proof. exact raw_bits. Qed.
Print Assumptions C89_bits.
Theorem C89_bytes_refuted : exists p zero c path im saves ls r n, img_ok im /\ measure_says p zero c path (inl im) saves = Some (ls, r) /\ In (RawSize n) ls /\ n <> (3 * pixels im)%N.
Proof. exact not_bytes. Qed.
Print Assumptions C89_bytes_refuted.
(** The messages need not tell which image failed: two runs print the same lines in the same order, and an image has a
    row in one of them and not in the other. *)
Theorem C89_attributed_refuted : exists paths path opens opens' jobs jobs' out out' log,
  let run opens jobs out := tasks Debug (B754_zero true) delta_codec opens (fun _ => true) paths jobs /\ loud_run jobs true true (Ok tt) out [] log in
  run opens jobs out /\ run opens' jobs' out' /\ In path (map rec_name (records out)) /\ ~ In path (map rec_name (records out')).
Proof. exact who_failed. Qed.
Print Assumptions C89_attributed_refuted.
(** Example: of two files one is missing. *)
Example C89_case : exists jobs out log, tasks Debug (B754_zero true) delta_codec (only pa) (fun _ => true) [pa; pb] jobs
  /\ loud_run jobs true true (Ok tt) out [] log /\ ~ In Panic (map snd jobs) /\ failures log = [NoOpen gone] /\ map rec_name (records out) = [pa].
Proof. exact loud_case. Qed.
Example C89_quiet_case : any_is_lossless Delta = true /\ Forall (fine (fun q => the_image (only pa q)) (fun _ => env1)) [pa].
Proof. exact (conj eq_refl quiet_case). Qed.
