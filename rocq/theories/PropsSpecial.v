(** * Properties C58, C59, C60: the traversal dump and the output files. *)
From Coq Require Import String Permutation.
From Verif Require Import Base Ser Prs Float Img HilbertC CodecSpec CodecHilbert CodecCases Select Special SpecialSpec SpecialProofs.
Close Scope string_scope.
Open Scope list_scope.

(** C58: the three files, and what their columns hold: the colours along the three
    traversals, with green below "blue" and blue below "green" *)
Theorem C58_dump : forall p scan d name im, img_ok im -> (im_w im <= 2 ^ 31)%N -> (im_h im <= 2 ^ 31)%N -> directory d -> plain_name name ->
  (forall w h, (w < 2 ^ 32)%N -> (h < 2 ^ 32)%N -> visits_all w h (scan w h)) ->
  exists stem rect small large s S, stem_of name stem /\ small_side (im_w im) (im_h im) s /\ large_side (im_w im) (im_h im) S
  /\ dump p scan (d ++ name) im = Ok [(txt "output/" ++ stem ++ txt ".rect.hilbert.csv", rect);
       (txt "output/" ++ stem ++ txt ".small.hilbert.csv", small); (txt "output/" ++ stem ++ txt ".large.hilbert.csv", large)]
  /\ dumped rect (map (pixel_at im) (scan (im_w im) (im_h im)))
  /\ dumped small (map (pixel_at im) (scan s s))
  /\ dumped large (map (pixel_at im) (filter (fun q => (fst q <? im_w im) && (snd q <? im_h im))%N (scan S S)))
  /\ Permutation (map (pixel_at im) (scan (im_w im) (im_h im))) (im_px im)
  /\ Permutation (map (pixel_at im) (filter (fun q => (fst q <? im_w im) && (snd q <? im_h im))%N (scan S S))) (im_px im).
Proof. exact dump_spec. Qed.
Print Assumptions C58_dump.
(** The column "green" is not the green channel. *)
Theorem C58_green_column_refuted : exists p scan path im files, img_ok im /\ visits_all (im_w im) (im_h im) (scan (im_w im) (im_h im))
  /\ dump p scan path im = Ok files
  /\ exists f t, nth_error files 0 = Some (f, t)
     /\ column (txt "green") t <> Some (map (fun q => Some (Num (green (pixel_at im q)))) (scan (im_w im) (im_h im))).
Proof. exact green_wrong. Qed.
Print Assumptions C58_green_column_refuted.
Example C58_case : directory (txt "pics/") /\ plain_name (txt "cat.2.png") /\ stem_of (txt "cat.2.png") (txt "cat.2")
  /\ img_ok pic /\ visits_all 2 2 (rows 2%N 2%N)
  /\ match dump Debug rows (txt "pics/cat.2.png") pic with
     | Ok [(f1, t1); (f2, t2); (f3, t3)] => f1 = txt "output/cat.2.rect.hilbert.csv" /\ List.length t1 = 5%nat /\ List.length t2 = 2%nat /\ List.length t3 = 5%nat
     | _ => False
     end.
Proof.
  split; [right; exists (txt "pics"); reflexivity|]. split; [repeat split; try discriminate; cbn; intuition discriminate|].
  split; [apply (stem_cut (txt "cat.2") (txt "png")); [discriminate|cbn; intuition discriminate]|].
  split; [exact pic_ok|]. split; [|vm_compute; auto].
  apply row_major_visits.
Qed.

(** C59: an output file lies directly in [output/], and is named after the input *)
Theorem C59_inside : forall path ext f, under_output path ext = Ok f ->
  exists stem, f = txt "output/" ++ stem ++ [DOT] ++ ext /\ stem <> [] /\ ~ In SLASH stem.
Proof. exact under_output_inside. Qed.
Print Assumptions C59_inside.
Theorem C59_exact : forall d name ext, directory d -> plain_name name ->
  exists stem, stem_of name stem /\ under_output (d ++ name) ext = Ok (txt "output/" ++ stem ++ [DOT] ++ ext).
Proof. exact under_output_exact. Qed.
Print Assumptions C59_exact.
(** Paths without a file name abort the program. *)
Theorem C59_aborts : forall path ext, Forall (fun c => c = [] \/ c = [DOT]) (split_on SLASH path) \/ (exists d, directory d /\ path = d ++ [DOT; DOT]) ->
  under_output path ext = Panic.
Proof. exact under_output_aborts. Qed.
Print Assumptions C59_aborts.
(** Inputs that differ only in directory or extension share an output file. *)
Theorem C59_collide : forall d d' stem e e' ext, directory d -> directory d' -> stem <> [] -> ~ In SLASH stem ->
  ~ In DOT e -> ~ In SLASH e -> ~ In DOT e' -> ~ In SLASH e' ->
  plain_name (stem ++ [DOT] ++ e) -> plain_name (stem ++ [DOT] ++ e') ->
  under_output (d ++ stem ++ [DOT] ++ e) ext = under_output (d' ++ stem ++ [DOT] ++ e') ext.
Proof. exact under_output_collide. Qed.
Print Assumptions C59_collide.
Theorem C59_distinct_refuted : exists path path' ext f, path <> path' /\ under_output path ext = Ok f /\ under_output path' ext = Ok f.
Proof. exact names_collide. Qed.
Print Assumptions C59_distinct_refuted.
Example C59_case : under_output (txt "../a/./.b.tar.gz//") (txt "decoded.png") = Ok (txt "output/.b.tar.decoded.png")
  /\ under_output (txt ".bashrc") (txt "x") = Ok (txt "output/.bashrc.x") /\ under_output (txt "noext") (txt "x") = Ok (txt "output/noext.x")
  /\ under_output (txt "a/..") (txt "x") = Panic /\ under_output (txt "") (txt "x") = Panic.
Proof. vm_compute. auto. Qed.

(** C60: the benchmark tables of different codecs go to different files *)
Theorem C60_table_file : forall show c c', (forall d d', show d = show d' -> d = d') -> table_file show c = table_file show c' -> same_codec c c'.
Proof. exact table_inj. Qed.
Print Assumptions C60_table_file.
Example C60_case : forall show, table_file show (ClusterColors 205) = txt "output/cluster-colors_205.csv"
  /\ table_file show (VoronoiCluster 0) = txt "output/voronoi_0.csv" /\ table_file show (Hilbert (RLE (f64_of_N 0))) = txt "output/hilbert-rle.csv".
Proof. intros show. split; [|split]; vm_compute; reflexivity. Qed.
