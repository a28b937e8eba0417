(** * Property C75: the diagrams. *)
From Coq Require Import String Reals Permutation Sorted.
From Flocq Require Import BinarySingleNaN.
From Verif Require Import Base Prs Float FloatProofs Img HilbertC Huf HufSpec CodecSpec CodecBytes CodecCases Select Bench BenchSpec BenchTop PropsBench EncodeBytes Special SpecialSpec Program ProgramSpec ProgramProofs PropsProgram PropsBytes SelectTop
  Diagrams DiagramSpec DiagramProofs DiagramFloat DiagramTop.
Close Scope string_scope.
Open Scope list_scope.

(** C75: the tables of all codecs are drawn; the other files of the program are not. *)
Theorem C75_tables : forall show c, show_ok show -> is_diagram_csv (codec_name show c ++ txt ".csv") = true.
Proof. exact tables_drawn. Qed.
Print Assumptions C75_tables.
Theorem C75_dumps : forall path meth name, dump_file path meth = Ok (txt "output/" ++ name) -> is_diagram_csv name = false.
Proof. exact dumps_not_drawn. Qed.
Print Assumptions C75_dumps.
Theorem C75_images : forall path name, under_output path (txt "png") = Ok (txt "output/" ++ name) -> is_diagram_csv name = false.
Proof. exact images_not_drawn. Qed.
Print Assumptions C75_images.
(** Two tables belong to the same series if their codecs differ only in the number of
    clusters, or in a distance that is not zero. *)
Theorem C75_series : forall show c c', series_name (codec_name show c ++ txt ".csv") = series_name (codec_name show c' ++ txt ".csv") <-> same_family c c'.
Proof. exact series_names. Qed.
Print Assumptions C75_series.
(** The scatter plot: each series once, with one point per table, in the order of the
    files.  A table without even a header aborts it. *)
Theorem C75_scatter : forall reread mean files,
  (Forall (fun f => has_header (snd f)) files ->
    exists ss, scatter reread mean files = Ok ss /\ NoDup (map fst ss) /\ (forall n, In n (map fst ss) <-> In n (map (fun f => series_name (fst f)) files))
    /\ forall n qs, In (n, qs) ss -> Forall2 (fun f q => drawn_at reread mean (snd f) q) (of_series n files) qs)
  /\ (~ Forall (fun f => has_header (snd f)) files -> scatter reread mean files = Panic).
Proof. exact scatter_spec. Qed.
Print Assumptions C75_scatter.
(** The box plot: the tables without errors, each once, sorted by their means.  It aborts
    if there is no such table. *)
Theorem C75_boxplot : forall reread mean files, let shown := filter (fun f => kept reread mean (snd f)) files in
  (Forall (fun f => has_header (snd f)) files /\ shown <> [] -> exists boxes, boxplot reread mean files = Ok boxes /\ Permutation boxes (map (box reread) shown))
  /\ (~ (Forall (fun f => has_header (snd f)) files /\ shown <> []) -> boxplot reread mean files = Panic).
Proof. exact boxplot_spec. Qed.
Print Assumptions C75_boxplot.
Theorem C75_sorted : forall reread mean files boxes, boxplot reread mean files = Ok boxes -> Forall (numbered mean) boxes -> Sorted (ordered mean) boxes.
Proof. exact boxplot_sorted. Qed.
Print Assumptions C75_sorted.
(** A table of the benchmark is in the box plot exactly if all its images came back with
    the same colours: no error is rounded away, however many images there are. *)
Theorem C75_lossless : forall reread mean p sg opens E E' c l, reread_ok reread -> mean_ok mean -> l <> [] -> (N.of_nat (List.length l) < 2 ^ 33)%N ->
  Forall (fun r => usable opens E c (rec_name r) /\ describes p (B754_zero sg) opens E E' c r) l ->
  kept reread mean (BenchTable (table l)) = true <-> Forall (came_back opens E E' c) l.
Proof. exact kept_lossless. Qed.
Print Assumptions C75_lossless.
(** The ratios for the png files are computed like those of the benchmark. *)
Theorem C75_png_ratio : forall div p im size, py_div_ok div -> img_ok im -> (0 < pixels im)%N -> (24 * pixels im < 2 ^ 32)%N -> (size < 2 ^ 53)%N ->
  exists raw, raw_size p im = Ok raw /\ png_ratio div size (im_w im) (im_h im) = Some (fmul (fdiv (f64_of_N size) (f64_of_N raw)) (f64_of_N 100)).
Proof. exact png_same_ratio. Qed.
Print Assumptions C75_png_ratio.
(** "After a successful run the diagrams can be drawn" is false: if no image can be read
    the table has no header, and both scripts abort. *)
Theorem C75_drawable_refuted : forall p d f show zero opens saves E E' scan t c paths out files reread mean others,
  any_codec_from_str p d f t = POk c -> Forall (fun path => opens path = None) paths ->
  program p d f show zero opens saves E E' scan ((txt "--codec=" ++ t) :: paths) out files ->
  out = Ok tt /\ exists rows, files = [Table (table_file show c) rows]
  /\ scatter reread mean ((codec_name show c ++ txt ".csv", BenchTable rows) :: others) = Panic
  /\ boxplot reread mean ((codec_name show c ++ txt ".csv", BenchTable rows) :: others) = Panic.
Proof. exact no_success_aborts. Qed.
Print Assumptions C75_drawable_refuted.

Example C75_oracles : reread_ok (fun x => x) /\ mean_ok some_mean /\ py_div_ok (fun a b => if (b =? 0)%N then None else Some (fdiv (f64_of_N a) (f64_of_N b))).
Proof. exact sample_oracles. Qed.
(** Two tables of one series, and one that is alone: [png] has a box *)
Definition some_files : list (text * csv_file) :=
  [(txt "cluster-colors_2.csv", BenchTable [Header; Row (txt "a.png", 9%N, f64_of_N 50, f64_of_N 8); Row (txt "b.png", 9%N, f64_of_N 150, f64_of_N 0)]);
   (txt "png.csv", PngTable [(txt "a.png", 5%N, f64_of_N 20)]);
   (txt "delta.csv", BenchTable [Header; Row (txt "a.png", 5%N, f64_of_N 10, f64_of_N 0)]);
   (txt "cluster-colors_3.csv", BenchTable [Header; Row (txt "a.png", 9%N, f64_of_N 100, f64_of_N 2)])].
Example C75_drawn : Forall (fun f => has_header (snd f)) some_files
  /\ match scatter (fun x => x) some_mean some_files with
     | Ok ss => map fst ss = [txt "cluster-colors"; txt "png"; txt "delta"]
                /\ forallb (fun b => b) (concat (map (fun s => map (fun q => feq (fst q) (fst q)) (snd s)) ss)) = true
                /\ match ss with (_, [(x, y); (x', y')]) :: _ => feq x (f64_of_N 1) && feq y (f64_of_N 4) && feq x' (f64_of_N 1) && feq y' (f64_of_N 2) = true | _ => False end
     | _ => False end
  /\ match boxplot (fun x => x) some_mean some_files with Ok bs => map snd bs = [txt "delta"; txt "png"] | _ => False end.
Proof.
  split; [repeat constructor; discriminate|]. split; vm_compute; auto.
Qed.
(** A lossless and a lossy codec *)
Example C75_lossless_case : exists r r',
  usable two_files (fun _ => env2) Delta (rec_name r) /\ describes Debug (B754_zero true) two_files (fun _ => env2) (fun _ => env2) Delta r
  /\ came_back two_files (fun _ => env2) (fun _ => env2) Delta r
  /\ usable two_files (fun _ => env2) (Hilbert (RLE (B754_infinity false))) (rec_name r')
  /\ describes Debug (B754_zero true) two_files (fun _ => env2) (fun _ => env2) (Hilbert (RLE (B754_infinity false))) r'
  /\ ~ came_back two_files (fun _ => env2) (fun _ => env2) (Hilbert (RLE (B754_infinity false))) r'.
Proof.
  assert (G : forall c data y, any_encode env2 c pic = Some (Ok data) -> any_decode env2 c data = Some (Ok y) ->
    exists r, rec_name r = txt "a.png" /\ describes Debug (B754_zero true) two_files (fun _ => env2) (fun _ => env2) c r
    /\ (came_back two_files (fun _ => env2) (fun _ => env2) c r <-> forall i a b, nth_error (im_px pic) i = Some a -> nth_error (im_px y) i = Some b -> to_rgb a = to_rgb b)).
  { intros c data y H1 H2. assert (Ey : exists e, compute_error Debug (B754_zero true) pic y = Ok e) by (unfold compute_error; eexists; reflexivity).
    destruct Ey as [e He]. exists (txt "a.png", N.of_nat (List.length data), percentage (N.of_nat (List.length data)) (24 * pixels pic), e). split; [reflexivity|]. split.
    - exists pic, data, y. split; [reflexivity|]. split; [exact H1|]. split; [exact H2|]. split; [reflexivity|]. split; [reflexivity|]. split; [intros _; vm_compute; reflexivity|exact He].
    - split; [|intros H; exists pic, data, y; auto]. intros (im & data2 & y2 & A & B & C & D). cbn [rec_name] in A. injection A as <-. rewrite H1 in B. apply some_inj, ok_inj in B. subst data2.
      rewrite H2 in C. apply some_inj, ok_inj in C. now subst y2. }
  assert (U : forall c, usable two_files (fun _ => env2) c (txt "a.png")).
  { intros c. destruct C76_case as (H1 & H2 & H3 & _). exists pic. split; [reflexivity|]. split; [exact H2|]. split; [cbn; lia|]. split; [exact H1|]. intros _. exact H3. }
  destruct (any_encode env2 Delta pic) as [[data| |]|] eqn:E1; [|vm_compute in E1; discriminate..].
  destruct (any_decode env2 Delta data) as [[y| |]|] eqn:E2; [|vm_compute in E1; injection E1 as <-; vm_compute in E2; discriminate..].
  destruct (any_encode env2 (Hilbert (RLE (B754_infinity false))) pic) as [[data'| |]|] eqn:E3; [|vm_compute in E3; discriminate..].
  destruct (any_decode env2 (Hilbert (RLE (B754_infinity false))) data') as [[y'| |]|] eqn:E4; [|vm_compute in E3; injection E3 as <-; vm_compute in E4; discriminate..].
  destruct (G _ _ _ E1 E2) as (r & N1 & D1 & B1). destruct (G _ _ _ E3 E4) as (r' & N2 & D2 & B2). exists r, r'. rewrite N1, N2.
  split; [apply U|]. split; [exact D1|]. split; [|split; [apply U|split; [exact D2|]]].
  - apply B1. vm_compute in E1. injection E1 as <-. vm_compute in E2. injection E2 as <-. clear. intros [|[|[|[|[|i]]]]] a b Ha Hb; cbn in Ha, Hb; try discriminate; injection Ha as <-; injection Hb as <-; reflexivity.
  - rewrite B2. intros H. vm_compute in E3. injection E3 as <-. vm_compute in E4. injection E4 as <-. clear -H. specialize (H 2%nat _ _ eq_refl eq_refl). discriminate H.
Qed.
(** Nothing can be read, and there is such a run. *)
Example C75_drawable_case : exists out files,
  program Debug ascii_digit_class (fun _ => None) (fun _ => []) (B754_zero true) (fun _ => None) (fun _ => true) (fun _ => env2) (fun _ => env2) rows ((txt "--codec=" ++ txt "delta") :: [txt "a.png"; txt "b.png"]) out files.
Proof.
  eapply run_exists; [apply inside_other|]. intros path _. eexists. reflexivity.
Qed.
