(** * Runs and the texts of their files; a dump on a full disk. *)
From Coq Require Import String Permutation.
From Verif Require Import Base Prs PrsSpec Float Img HilbertC HufSpec CodecSpec CodecHilbert CodecCases Select SelectSpec Bench BenchSpec Special SpecialSpec SpecialProofs Program ProgramSpec ProgramProofs CsvText CsvSpec CsvProofs Dumper DumperSpec DumperProofs.
Close Scope string_scope.
Open Scope list_scope.

Lemma sheet_read l : exists rows, read_csv_text (sheet l) = Some ([txt "red"; txt "blue"; txt "green"] :: rows)
  /\ Forall2 (fun (px : rgba) fields => exists r g b, fields = [r; g; b] /\ digits r /\ digits g /\ digits b /\ (number r, number g, number b) = to_rgb px) l rows.
Proof. rewrite <- dump_sheet. apply dump_read. Qed.
Lemma run_read p d f show show64 zero opens saves E E' scan t c paths files :
  any_codec_from_str p d f t = POk c ->
  program p d f show zero opens saves E E' scan ((txt "--codec=" ++ t) :: paths) (Ok tt) files ->
  exists table, files = [Table (table_file show c) table] /\ exists records missing, Permutation (map rec_name records ++ missing) paths
  /\ Forall (fun r => describes p zero opens E E' c r /\ passes saves c r) records /\ Forall (fails p zero opens saves E E' c) missing
  /\ (records = [] /\ table_text show64 table = []
      \/ exists rows, read_csv_text (table_text show64 table) = Some ([txt "name"; txt "compressed_size"; txt "compression_ratio"; txt "error"] :: rows)
         /\ Forall2 (fun '(name, size, ratio, error) fields => exists t, fields = [name; t; show64 ratio; show64 error] /\ digits t /\ number t = size) records rows).
Proof.
  intros Hc P. destruct (any_run _ _ _ _ _ _ _ _ _ _ t c paths _ files Hc P) as (rows & l & m & -> & R & Pm & D & [(_ & _ & Fm)|(X & _)]); [|discriminate].
  exists rows. split; [reflexivity|]. exists l, m. split; [exact Pm|]. split; [exact D|]. split; [exact Fm|]. destruct R as [[-> ->]| ->]; [left; auto|]. right. apply table_read.
Qed.

Lemma silent_loss : exists p scan opens creates writes paths fs fs', (forall w h, (w < 2 ^ 32)%N -> (h < 2 ^ 32)%N -> visits_all w h (scan w h))
  /\ Forall (dumpable opens) paths /\ (forall f, creates f = true) /\ dumps p scan opens creates writes paths fs (Ok tt) fs'
  /\ exists path f, In path paths /\ file_of path f /\ fs' f = Some [].
Proof.
  exists Debug, row_major, (fun _ => Some pic), (fun _ => true), (fun _ => false), [txt "cat.png"], (fun _ => None).
  eexists. split; [intros w h _ _; apply row_major_visits|]. split.
  { constructor; [|constructor]. exists [], (txt "cat.png"), pic. split; [reflexivity|]. split; [now left|]. split; [|split; [reflexivity|split; [exact pic_ok|cbn; lia]]].
    split; [discriminate|]. split; [discriminate|]. split; [discriminate|]. cbn. intuition discriminate. }
  split; [reflexivity|]. split.
  - eapply dumps_more; [reflexivity| |constructor].
    assert (G : forall m ps rest fs fs', res_mapM (get_pixel pic) ps <> Panic -> res_mapM (get_pixel pic) ps <> Err -> forall name, dump_file (txt "cat.png") m = Ok name ->
      write_sheets (fun _ => true) (fun _ => false) (txt "cat.png") pic rest (put_file name [] fs) (Ok tt) fs' -> write_sheets (fun _ => true) (fun _ => false) (txt "cat.png") pic ((m, Ok ps) :: rest) fs (Ok tt) fs').
    { intros m ps rest fs fs' N1 N2 name Dn W. destruct (res_mapM (get_pixel pic) ps) as [l| |] eqn:E; [|now destruct N2|now destruct N1].
      eapply sheets_more; [exact Dn| |exact W]. apply sheet_full with (ps1 := ps) (ps2 := []) (l := l); auto; [now rewrite app_nil_r|]. eexists. reflexivity. }
    unfold methods. change (positions_small Debug row_major pic) with (@Ok (list (N * N)) [(0, 0)]%N). change (positions_rect row_major pic) with (@Ok (list (N * N)) [(0, 0); (1, 0); (0, 1); (1, 1)]%N).
    change (positions_large Debug row_major pic) with (@Ok (list (N * N)) [(0, 0); (1, 0); (0, 1); (1, 1)]%N).
    eapply G; [vm_compute; discriminate|vm_compute; discriminate|reflexivity|]. eapply G; [vm_compute; discriminate|vm_compute; discriminate|reflexivity|].
    eapply G; [vm_compute; discriminate|vm_compute; discriminate|reflexivity|]. constructor.
  - exists (txt "cat.png"). eexists. split; [now left|]. split; [exists (txt "large"); split; [cbn; auto|reflexivity]|]. apply put_same.
Qed.
