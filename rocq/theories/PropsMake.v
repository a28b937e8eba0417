(** * The Makefile as a whole (C81): which targets can be brought about.

    For all files that exist before, all profiles, [d] the class [\d] of the regex crate,
    [f] is [f64::from_str] and [show] is [{}] of an f64. *)
From Coq Require Import String.
From Verif Require Import Base Prs Regex Float Img HilbertC Select SelectSpec SelectProofs SelectTop Special SpecialSpec Program ProgramSpec MakeGraph MakeSpec MakeProofs.
Close Scope string_scope.
Open Scope list_scope.

(** Without the backup of some voronoi table (and the marker that it was copied) the
    lossy diagram cannot be made: no rule makes the backup. *)
Theorem C81_without_voronoi : forall p d f show fs fs' n t, In n voronoi_sizes ->
  fs (txt "output/voronoi_" ++ decimal n ++ txt ".csv.bak") = false -> fs (txt "output/voronoi_" ++ decimal n ++ txt ".csv.cp") = false ->
  In t [txt "diagrams"; txt "lossy_status.png"; txt "output/error_vs_compression.png"] -> ~ builds p d f show fs t fs'.
Proof. exact lossy_fails. Qed.
Print Assumptions C81_without_voronoi.
(** Without the table of zip(back), which no rule makes, there are no diagrams at all. *)
Theorem C81_without_zip_back : forall p d f show, digit_class_ok d -> forall fs fs' t,
  fs (txt "output/zip-back.csv") = false -> fs (txt "output/zip-back.csv.cp") = false ->
  In t [txt "diagrams"; txt "lossless_status.png"; txt "lossy_status.png"; txt "output/boxplot.png"; txt "output/error_vs_compression.png"] -> ~ builds p d f show fs t fs'.
Proof. exact diagrams_fail. Qed.
Print Assumptions C81_without_zip_back.
(** With that table and its backup the lossless diagram can be made. *)
Theorem C81_lossless : forall p d f show, digit_class_ok d -> forall fs,
  stocked [txt "output"; txt "output/zip-back.csv"; txt "output/zip-back.csv.bak"; txt "scripts/diagrams/boxplot.py"] fs ->
  exists fs', builds p d f show fs (txt "lossless_status.png") fs' /\ fs' (txt "lossless_status.png") = true.
Proof. exact lossless_enough. Qed.
Print Assumptions C81_lossless.
(** With all tables of slow codecs and their backups both can be made. *)
Theorem C81_diagrams : forall p d f show, digit_class_ok d -> (forall x, In x approx_sizes -> exists v, f x = Some v) -> forall fs,
  stocked ([txt "output"; txt "output/zip-back.csv"; txt "output/zip-back.csv.bak"; txt "scripts/diagrams/boxplot.py"; txt "scripts/diagrams/error_vs_compression_plot.py"]
           ++ slow_tables ++ map (fun t => t ++ txt ".bak") slow_tables) fs ->
  exists fs', builds p d f show fs (txt "diagrams") fs' /\ fs' (txt "lossless_status.png") = true /\ fs' (txt "lossy_status.png") = true.
Proof. exact diagrams_enough. Qed.
Print Assumptions C81_diagrams.
(** The first target fails unless the images or their archive are there: no rule asks
    for the archive. *)
Theorem C81_all : forall p d f show fs,
  ((exists fs', builds p d f show fs (txt "all") fs') <-> fs (txt "data/DIV2K_valid_HR") = true \/ fs (txt "data/DIV2K_valid_HR.zip") = true).
Proof. exact all_iff. Qed.
Print Assumptions C81_all.
(** A fresh checkout *)
Definition checkout : folder := fun t => existsb (text_eqb t) [txt "lossless_status.png"; txt "lossy_status.png"; txt "scripts/diagrams/boxplot.py"; txt "scripts/diagrams/error_vs_compression_plot.py"].
Example C81_case : digit_class_ok ascii_digit_class /\ checkout (txt "output/zip-back.csv") = false /\ checkout (txt "output/zip-back.csv.cp") = false
  /\ checkout (txt "data/DIV2K_valid_HR.zip") = false /\ checkout (txt "output/voronoi_" ++ decimal 2048 ++ txt ".csv.bak") = false
  /\ stocked [txt "output"; txt "output/zip-back.csv"; txt "output/zip-back.csv.bak"; txt "scripts/diagrams/boxplot.py"]
       (create (txt "output") (create (txt "output/zip-back.csv") (create (txt "output/zip-back.csv.bak") checkout)))
  /\ length slow_tables = 11%nat.
Proof.
  split; [exact ascii_digit_class_ok|]. do 4 (split; [vm_compute; reflexivity|]). split; [|reflexivity].
  intros t [<-|[<-|[<-|[<-|[]]]]]; vm_compute; reflexivity.
Qed.
