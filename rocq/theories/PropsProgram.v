(** * Properties C68 and C69: whole runs of the program, and the Makefile.

    [d] is the class [\d] of the regex crate, [f] is [f64::from_str] and [show] is [{}] of
    an f64. *)
From Coq Require Import String Permutation.
From Flocq Require Import BinarySingleNaN.
From Verif Require Import Base Ser Prs PrsSpec Float Img HilbertC CodecSpec CodecCases Select SelectSpec SelectProofs SelectTop Main Bench BenchSpec Special SpecialSpec Program ProgramSpec ProgramProofs PropsBench.
Close Scope string_scope.
Open Scope list_scope.

(** C68: any codec.  The run leaves one table, with at most one record per path, each
    describing its image.  If nothing aborts, only images that failed are missing. *)
Theorem C68_any_run : forall p d f show zero opens saves E E' scan t c paths out files,
  any_codec_from_str p d f t = POk c ->
  program p d f show zero opens saves E E' scan ((txt "--codec=" ++ t) :: paths) out files ->
  exists rows l missing, files = [Table (table_file show c) rows]
  /\ (rows = [] /\ l = [] \/ rows = Header :: map Row l)
  /\ Permutation (map rec_name l ++ missing) paths /\ Forall (fun r => describes p zero opens E E' c r /\ passes saves c r) l
  /\ (out = Ok tt /\ rows = table l /\ Forall (fails p zero opens saves E E' c) missing
      \/ out = Panic /\ exists path, In path paths /\ job p zero opens saves E E' c path = Some Panic).
Proof. exact any_run. Qed.
Print Assumptions C68_any_run.
(** Lossless codecs on images that are not empty and not too large: runs end, every run
    is successful and gives every path a record with error zero.  For zip(back) they must
    be small. *)
Theorem C68_lossless_run : forall p d f show sg opens saves E scan t c paths,
  any_codec_from_str p d f t = POk c -> any_is_lossless c = true -> (c = Zip ZBack -> Forall (tiny opens) paths) -> Forall (fine opens E) paths ->
  exists f0, forall E', (forall path, In path paths -> e_scan (E' path) = e_scan (E path) /\ (2 <= e_stack (E' path))%nat /\ (f0 <= e_fuel (E' path))%nat) ->
  let run := program p d f show (B754_zero sg) opens saves E E' scan ((txt "--codec=" ++ t) :: paths) in
  (exists out files, run out files)
  /\ forall out files, run out files -> out = Ok tt /\ exists l, files = [Table (table_file show c) (table l)] /\ Permutation (map rec_name l) paths
     /\ Forall (fun r => describes p (B754_zero sg) opens E E' c r /\ feq (rec_error r) (f64_of_N 0) = true) l.
Proof. exact lossless_run. Qed.
Print Assumptions C68_lossless_run.
(** The dump: three files per path, in order; an unreadable image aborts it. *)
Theorem C68_dump_run : forall p d f show zero opens saves E E' scan paths, Forall (dumpable opens) paths ->
  (forall w h, (w < 2 ^ 32)%N -> (h < 2 ^ 32)%N -> visits_all w h (scan w h)) ->
  exists parts, Forall2 (fun path part => exists im fs, opens path = Some im /\ dump p scan path im = Ok fs /\ part = map (fun f => Dump (fst f) (snd f)) fs) paths parts
  /\ forall out files, program p d f show zero opens saves E E' scan (txt "--special=hilbert" :: paths) out files <-> out = Ok tt /\ files = concat parts.
Proof. exact dump_run. Qed.
Print Assumptions C68_dump_run.
Theorem C68_dump_unreadable : forall p d f show zero opens saves E E' scan paths out files, (exists path, In path paths /\ opens path = None) ->
  program p d f show zero opens saves E E' scan (txt "--special=hilbert" :: paths) out files -> out = Panic.
Proof. exact dump_unreadable. Qed.
Print Assumptions C68_dump_unreadable.
(** Only [a.png] and [b.png] can be read. *)
Definition two_files (path : text) : option img := if text_eqb path (txt "a.png") || text_eqb path (txt "b.png") then Some pic else None.
Example C68_case : forall p f, any_codec_from_str p ascii_digit_class f (txt "delta") = POk Delta /\ any_is_lossless Delta = true
  /\ Forall (tiny two_files) [txt "b.png"; txt "a.png"]
  /\ Forall (fine two_files (fun _ => env1)) [txt "b.png"; txt "a.png"] /\ Forall (dumpable two_files) [txt "b.png"; txt "a.png"].
Proof.
  intros p f. split; [apply inside_other|]. split; [reflexivity|]. split; [repeat constructor; exists pic; (split; [reflexivity|cbn; lia])|].
  assert (G : forall n, two_files n = Some pic -> fine two_files (fun _ => env1) n).
  { intros n H. exists pic. destruct C56_case as (H1 & H2 & H3 & H4 & _). split; [exact H|]. split; [exact H2|]. split; [apply H3|]. split; [exact H4|exact H1]. }
  split; [repeat (constructor; [apply G; reflexivity|]); constructor|].
  assert (K : forall n, two_files n = Some pic -> plain_name n -> dumpable two_files n).
  { intros n H Hn. exists [], n, pic. split; [reflexivity|]. split; [now left|]. split; [exact Hn|]. split; [exact H|]. split; [exact pic_ok|]. cbn. lia. }
  constructor; [|constructor; [|constructor]]; (apply K; [reflexivity|]); repeat split; try discriminate; cbn; intuition discriminate.
Qed.

(** C69: the rules of the Makefile make their targets *)
Theorem C69_fixed : forall p d f show, digit_class_ok d ->
  Forall2 (makes p d f show) fixed_rules [Hufman; Zip ZDict; Zip ZBack; Hilbert (RLE (f64_of_N 0)); Hilbert MZip; Delta].
Proof. exact fixed_makes. Qed.
Print Assumptions C69_fixed.
Theorem C69_cluster_colors : forall p d f show, digit_class_ok d -> forall n, (n < 2 ^ 64)%N -> makes p d f show (cluster_rule (decimal n)) (ClusterColors n).
Proof. exact cluster_makes. Qed.
Print Assumptions C69_cluster_colors.
(** Distances that are printed as they were written *)
Theorem C69_approx : forall p d f show, digit_class_ok d -> forall x v, distance x -> f x = Some v -> feq v (f64_of_N 0) = false -> show v = x ->
  makes p d f show (approx_rule x) (Hilbert (RLE v)).
Proof. exact approx_makes. Qed.
Print Assumptions C69_approx.
(** The rule for voronoi never makes its target.  It overwrites the backup of the
    cluster-colors table of the same number. *)
Theorem C69_voronoi_refuted : forall p d f show, digit_class_ok d -> forall n, (n < 2 ^ 64)%N ->
  any_codec_from_str p d f (r_codec (voronoi_rule (decimal n))) = POk (VoronoiCluster n)
  /\ forall fs rows, exists fs', recipe (voronoi_rule (decimal n)) (table_file show (VoronoiCluster n)) rows fs = Some fs'
     /\ fs' (r_target (voronoi_rule (decimal n))) = fs (r_target (voronoi_rule (decimal n)))
     /\ fs' (r_target (cluster_rule (decimal n))) = Some rows.
Proof. exact voronoi_wrong. Qed.
Print Assumptions C69_voronoi_refuted.
Example C69_case : digit_class_ok ascii_digit_class /\ distance (txt "2.5") /\ decimal 64 = txt "64"
  /\ r_target (voronoi_rule (decimal 64)) = txt "output/voronoi_64.csv.bak" /\ r_target (cluster_rule (decimal 64)) = txt "output/cluster-colors_64.csv.bak".
Proof.
  split; [exact ascii_digit_class_ok|]. split; [split; [discriminate|repeat constructor; cbn; lia]|]. vm_compute. auto.
Qed.
