(** * Properties C82 and C83: dumps with their files, and the texts of the csv files.

    The space-filling curve [scan] visits every position of a rectangle once.  [creates]
    and [writes]: the files that can be created and written. *)
From Coq Require Import String Permutation.
From Verif Require Import Base Prs PrsSpec Float Img HilbertC HufSpec CodecSpec CodecCases Select SelectSpec Bench BenchSpec Special SpecialSpec SpecialProofs Program ProgramSpec ProgramProofs CsvText CsvSpec CsvProofs Dumper DumperSpec DumperProofs CsvTop.
Close Scope string_scope.
Open Scope list_scope.

(** C82: every dump ends *)
Theorem C82_ends : forall p scan opens creates writes paths fs, exists out fs', dumps p scan opens creates writes paths fs out fs'.
Proof. exact dumps_total. Qed.
Print Assumptions C82_ends.
(** and if all images can be read, have a file name, and the files can be created and
    written, it succeeds. *)
Theorem C82_succeeds : forall p scan opens creates writes, (forall w h, (w < 2 ^ 32)%N -> (h < 2 ^ 32)%N -> visits_all w h (scan w h)) ->
  forall paths fs out fs', Forall (moderate opens) paths -> (forall path, In path paths -> exists im, opens path = Some im) ->
  (forall path m, In path paths -> In m [txt "rect"; txt "small"; txt "large"] -> exists f, dump_file path m = Ok f /\ creates f = true /\ writes f = true) ->
  dumps p scan opens creates writes paths fs out fs' -> out = Ok tt.
Proof. exact dumps_succeed. Qed.
Print Assumptions C82_succeeds.
(** After success every file holds the pixels of the last path that has it, all of them
    if the file could be written; other files are as before. *)
Theorem C82_files : forall p scan opens creates writes, (forall w h, (w < 2 ^ 32)%N -> (h < 2 ^ 32)%N -> visits_all w h (scan w h)) ->
  forall paths fs fs', Forall (moderate opens) paths -> dumps p scan opens creates writes paths fs (Ok tt) fs' ->
  (forall before path after im meth ps f, paths = before ++ path :: after -> opens path = Some im -> traversal scan im meth ps -> dump_file path meth = Ok f ->
    (forall q, In q after -> dump_file q meth <> Ok f) -> exists t, fs' f = Some t /\ prefix t (sheet (map (pixel_at im) ps)) /\ (writes f = true -> t = sheet (map (pixel_at im) ps)))
  /\ (forall f, (forall path, In path paths -> ~ file_of path f) -> fs' f = fs f).
Proof. exact dumps_ok_paths. Qed.
Print Assumptions C82_files.
(** After an abort the paths before the one that caused it are complete, those after it
    are untouched, and its own files are untouched or hold the start of their text. *)
Theorem C82_abort : forall p scan opens creates writes, (forall w h, (w < 2 ^ 32)%N -> (h < 2 ^ 32)%N -> visits_all w h (scan w h)) ->
  forall paths fs fs', Forall (moderate opens) paths -> dumps p scan opens creates writes paths fs Panic fs' ->
  exists before path after fs1, paths = before ++ path :: after /\ dumps p scan opens creates writes before fs (Ok tt) fs1 /\ (forall f, ~ file_of path f -> fs' f = fs1 f)
  /\ (forall f, fs' f = fs1 f \/ exists im, opens path = Some im /\ partly scan creates writes path im f fs') /\ (opens path = None \/ reason creates writes path).
Proof. exact dumps_abort. Qed.
Print Assumptions C82_abort.
(** Whatever happens, only files of the paths change. *)
Theorem C82_any : forall p scan opens creates writes, (forall w h, (w < 2 ^ 32)%N -> (h < 2 ^ 32)%N -> visits_all w h (scan w h)) ->
  forall paths fs out fs', Forall (moderate opens) paths -> dumps p scan opens creates writes paths fs out fs' -> out <> Err
  /\ forall f, fs' f = fs f \/ exists path im, In path paths /\ opens path = Some im /\ partly scan creates writes path im f fs'.
Proof. exact dumps_any. Qed.
Print Assumptions C82_any.
(** Success does not mean that the files are complete: on a full disk all pixels can be
    lost silently. *)
Theorem C82_complete_refuted : exists p scan opens creates writes paths fs fs', (forall w h, (w < 2 ^ 32)%N -> (h < 2 ^ 32)%N -> visits_all w h (scan w h))
  /\ Forall (dumpable opens) paths /\ (forall f, creates f = true) /\ dumps p scan opens creates writes paths fs (Ok tt) fs'
  /\ exists path f, In path paths /\ file_of path f /\ fs' f = Some [].
Proof. exact silent_loss. Qed.
Print Assumptions C82_complete_refuted.
Example C82_case : Forall (moderate (fun _ => Some pic)) [txt "pics/cat.2.png"; txt "dog.png"] /\ moderate (fun _ => None) (txt "x.png")
  /\ dump_file (txt "pics/cat.2.png") (txt "small") = Ok (txt "output/cat.2.small.hilbert.csv")
  /\ traversal rows pic (txt "small") [(0, 0)]%N
  /\ sheet (im_px pic) = txt "red,blue,green" ++ [10%N] ++ txt "255,0,0" ++ [10%N] ++ txt "255,0,0" ++ [10%N] ++ txt "0,0,255" ++ [10%N] ++ txt "255,0,0" ++ [10%N].
Proof.
  assert (M : forall q, moderate (fun _ => Some pic) q) by (intros q im H; injection H as <-; split; [exact pic_ok|split; cbn; lia]).
  split; [constructor; [apply M|constructor; [apply M|constructor]]|]. split; [intros im H; discriminate|]. split; [reflexivity|].
  split; [|vm_compute; reflexivity]. change ([(0, 0)]%N) with (rows 1%N 1%N). constructor. right. split; [cbn; lia|]. exists 0%N. split; [reflexivity|]. cbn. lia.
Qed.

(** C83: reading a table back as RFC 4180 says.  Whatever the paths look like, also with
    commas, quotation marks and line breaks, every record is there. *)
Theorem C83_table : forall show64 records, exists rows,
  read_csv_text (table_text show64 (Header :: map Row records)) = Some ([txt "name"; txt "compressed_size"; txt "compression_ratio"; txt "error"] :: rows)
  /\ Forall2 (fun '(name, size, ratio, error) fields => exists t, fields = [name; t; show64 ratio; show64 error] /\ digits t /\ number t = size) records rows.
Proof. exact table_read. Qed.
Print Assumptions C83_table.
(** The same for dumps. *)
Theorem C83_dump : forall l, exists rows, read_csv_text (sheet l) = Some ([txt "red"; txt "blue"; txt "green"] :: rows)
  /\ Forall2 (fun (px : rgba) fields => exists r g b, fields = [r; g; b] /\ digits r /\ digits g /\ digits b /\ (number r, number g, number b) = to_rgb px) l rows.
Proof. exact sheet_read. Qed.
Print Assumptions C83_dump.
(** So a whole run, read from its file: a record for every path but those that failed. *)
Theorem C83_run : forall p d f show show64 zero opens saves E E' scan t c paths files,
  any_codec_from_str p d f t = POk c ->
  program p d f show zero opens saves E E' scan ((txt "--codec=" ++ t) :: paths) (Ok tt) files ->
  exists table, files = [Table (table_file show c) table] /\ exists records missing, Permutation (map rec_name records ++ missing) paths
  /\ Forall (fun r => describes p zero opens E E' c r /\ passes saves c r) records /\ Forall (fails p zero opens saves E E' c) missing
  /\ (records = [] /\ table_text show64 table = []
      \/ exists rows, read_csv_text (table_text show64 table) = Some ([txt "name"; txt "compressed_size"; txt "compression_ratio"; txt "error"] :: rows)
         /\ Forall2 (fun '(name, size, ratio, error) fields => exists t, fields = [name; t; show64 ratio; show64 error] /\ digits t /\ number t = size) records rows).
Proof. exact run_read. Qed.
Print Assumptions C83_run.
Example C83_case : let name := txt "a,b" ++ [34%N; 10%N] ++ txt "c.png" in
  table_text (fun _ => txt "0.5") [Header; Row (name, 12%N, f64_of_N 1, f64_of_N 1)]
  = txt "name,compressed_size,compression_ratio,error" ++ [10; 34]%N ++ txt "a,b" ++ [34; 34; 10]%N ++ txt "c.png" ++ [34]%N ++ txt ",12,0.5,0.5" ++ [10]%N.
Proof. vm_compute. reflexivity. Qed.
