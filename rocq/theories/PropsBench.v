(** * Properties C50, C51, C52, C56: the benchmark (src/bench.rs). *)
From Coq Require Import String Reals Permutation.
From Flocq Require Import BinarySingleNaN.
From Verif Require Import Base Ser Prs Float Img HilbertC Huf HufSpec Back BackSpec CodecSpec CodecCases HufTop ClusterC Select Bench BenchSpec BenchPar BenchTop BenchLossless.
Close Scope string_scope.
Open Scope list_scope.

(** C50: when no image makes its task panic, the table holds the records of the images
    that succeeded, each once, below one header, whatever the schedule *)
Theorem C50_table : forall jobs s, bsteps jobs (b_init jobs) s -> Forall ended (b_tasks s) -> ~ In Panic jobs ->
  exists l, Permutation l (successes jobs) /\ finish s = (Ok tt, table l).
Proof. exact final_table. Qed.
Print Assumptions C50_table.
(** At every moment, and also when tasks panic: nothing, or the header and then records
    of different tasks *)
Theorem C50_always : forall jobs s, bsteps jobs (b_init jobs) s -> exists l rest, Permutation (l ++ rest) (successes jobs)
  /\ ((b_out s = [] /\ l = []) \/ b_out s = Header :: map Row l).
Proof. exact always. Qed.
Print Assumptions C50_always.
Theorem C50_panic : forall jobs s, bsteps jobs (b_init jobs) s -> Forall ended (b_tasks s) -> In Panic jobs -> fst (finish s) = Panic.
Proof. exact final_panic. Qed.
Print Assumptions C50_panic.
(** No schedule gets stuck or goes on forever. *)
Theorem C50_progress : forall jobs s, bsteps jobs (b_init jobs) s -> ~ Forall ended (b_tasks s) -> exists s', bstep jobs s s'.
Proof. exact progress. Qed.
Print Assumptions C50_progress.
Theorem C50_terminates : forall jobs (f : nat -> bstate), ~ (forall n, bstep jobs (f n) (f (S n))).
Proof. exact no_infinite_run. Qed.
Print Assumptions C50_terminates.
Definition rec1 : record := (txt "a.png", 10%N, B754_zero false, B754_zero false).
Definition rec2 : record := (txt "b.png", 20%N, B754_zero false, B754_zero false).
(** The second image fails; the third overtakes the first. *)
Example C50_case : exists s, bsteps [Ok rec1; Err; Ok rec2] (b_init [Ok rec1; Err; Ok rec2]) s /\ Forall ended (b_tasks s)
  /\ finish s = (Ok tt, [Header; Row rec2; Row rec1]).
Proof.
  eexists. split; [|split].
  - eapply bsteps_cons; [eapply (step_measure _ 0); reflexivity|]. eapply bsteps_cons; [eapply (step_measure _ 2); reflexivity|].
    eapply bsteps_cons; [eapply (step_lock _ 2); reflexivity|]. eapply bsteps_cons; [eapply (step_fail _ 1); reflexivity|].
    eapply bsteps_cons; [eapply (step_header _ 2); reflexivity|]. eapply bsteps_cons; [eapply (step_flag _ 2); reflexivity|].
    eapply bsteps_cons; [eapply (step_write _ 2); reflexivity|]. eapply bsteps_cons; [eapply (step_unlock _ 2); reflexivity|].
    eapply bsteps_cons; [eapply (step_lock _ 0); reflexivity|]. eapply bsteps_cons; [eapply (step_no_header _ 0); reflexivity|].
    eapply bsteps_cons; [eapply (step_write _ 0); reflexivity|]. eapply bsteps_cons; [eapply (step_unlock _ 0); reflexivity|]. apply bsteps_nil.
  - repeat constructor.
  - reflexivity.
Qed.

(** C51: images of the same size.  The reported error is the mean of the squared
    distances to within one part in a million, and zero only for equal colours. *)
Theorem C51_mean_square : forall p s x y, img_ok x -> img_ok y -> im_w y = im_w x -> im_h y = im_h x -> (0 < pixels x < 2 ^ 32)%N ->
  exists e, compute_error p (B754_zero s) x y = Ok e /\ is_finite e = true
  /\ (Rabs (B2R e - mean_square_error x y) <= mean_square_error x y / 1000000)%R
  /\ (feq e (f64_of_N 0) = true <-> map to_rgb (im_px x) = map to_rgb (im_px y)).
Proof. exact error_same_size. Qed.
Print Assumptions C51_mean_square.
(** Any sizes: only the common part of the two pixel sequences is compared. *)
Theorem C51_any_size : forall p s x y, img_ok x -> Forall rgba_ok (im_px y) -> (0 < pixels x < 2 ^ 32)%N ->
  exists e, compute_error p (B754_zero s) x y = Ok e /\ is_finite e = true
  /\ (Rabs (B2R e - mean_square_error x y) <= mean_square_error x y / 1000000)%R
  /\ (feq e (f64_of_N 0) = true <->
      (forall i a b, nth_error (im_px x) i = Some a -> nth_error (im_px y) i = Some b -> to_rgb a = to_rgb b)).
Proof. exact error_spec. Qed.
Print Assumptions C51_any_size.
(** Images of different shapes can have error zero. *)
Definition wide : img := mkImg 3 1 [(black, 255%N); (black, 255%N); ((255, 0, 0)%N, 255%N)].
Definition tall : img := mkImg 1 3 [(black, 255%N); (black, 255%N); ((255, 0, 0)%N, 255%N)].
Theorem C51_shape_refuted : exists x y, img_ok x /\ img_ok y /\ im_w x <> im_w y
  /\ forall p s, exists e, compute_error p (B754_zero s) x y = Ok e /\ feq e (f64_of_N 0) = true.
Proof. exact shape_ignored. Qed.
Print Assumptions C51_shape_refuted.
(** Without pixels the error is not a number, which counts as an error. *)
Theorem C51_empty : forall p s x y, img_ok x -> pixels x = 0%N ->
  exists e, compute_error p (B754_zero s) x y = Ok e /\ is_nan e = true /\ feq e (f64_of_N 0) = false.
Proof. exact error_empty. Qed.
Print Assumptions C51_empty.
(** From 2^32 pixels on a debug build aborts; a release build can find an image
    different from itself. *)
Theorem C51_wide : forall s x, img_ok x -> (2 ^ 32 <= pixels x)%N ->
  (forall y, compute_error Debug (B754_zero s) x y = Panic)
  /\ ((pixels x mod 2 ^ 32 = 0)%N -> exists e, compute_error Release (B754_zero s) x x = Ok e /\ is_nan e = true /\ feq e (f64_of_N 0) = false).
Proof. exact error_wide. Qed.
Print Assumptions C51_wide.
Example C51_case : img_ok pic /\ img_ok (opaque pic) /\ (0 < pixels pic < 2 ^ 32)%N
  /\ (match compute_error Debug (B754_zero true) wide (mkImg 3 1 [((3, 4, 0)%N, 7%N); (black, 0%N); ((255, 0, 5)%N, 0%N)]) with
      | Ok e => feq (fmul e (f64_of_N 6)) (f64_of_N 100) | _ => false end = true).
Proof.
  split; [exact pic_ok|]. split; [apply opaque_ok, pic_ok|]. split; [cbn; lia|vm_compute; reflexivity].
Qed.

(** C52: the percentage in the table is an eighth of the size relative to three bytes per
    pixel, to within one part in 10^15. *)
Theorem C52_ratio : forall p z c name im saves n size ratio e, measure_one p z c name (Some im) saves = Some (Ok (n, size, ratio, e)) ->
  (0 < pixels im)%N -> (24 * pixels im < 2 ^ 32)%N -> (size < 2 ^ 45)%N ->
  n = name /\ (exists data, enc c im = Some (Ok data) /\ size = N.of_nat (List.length data)) /\ is_finite ratio = true
  /\ let want := (100 * (IZR (Z.of_N size) / IZR (Z.of_N (3 * pixels im))))%R in (Rabs (B2R ratio - want / 8) <= want / 8 / 1000000000000000)%R.
Proof. exact ratio_spec. Qed.
Print Assumptions C52_ratio.
(** Where 24 times the number of pixels passes 2^32 a debug build aborts, and a release
    build can report an infinite ratio. *)
Theorem C52_overflow : forall z c name im saves data, enc c im = Some (Ok data) -> (2 ^ 32 <= 24 * pixels im)%N ->
  measure_one Debug z c name (Some im) saves = Some Panic
  /\ forall n size ratio e, measure_one Release z c name (Some im) saves = Some (Ok (n, size, ratio, e)) -> (24 * pixels im mod 2 ^ 32 = 0)%N -> (0 < size < 2 ^ 53)%N ->
     ratio = B754_infinity false.
Proof. exact ratio_overflow. Qed.
Print Assumptions C52_overflow.
(** Three bytes for one pixel are 12.5%. *)
Definition raw_codec : codec := mkCodec (fun im => Some (Ok (flat_map (fun px => let '(r, g, b) := to_rgb px in [r; g; b]) (im_px im))))
  (fun data => match data with [r; g; b] => Some (Ok (from_rgb 1 1 [(r, g, b)])) | _ => Some Err end) true.
Definition dot : img := mkImg 1 1 [((1, 2, 3)%N, 4%N)].
Example C52_case : match measure_one Debug (B754_zero true) raw_codec (txt "dot.png") (Some dot) true with
  | Some (Ok (n, size, ratio, e)) => text_eqb n (txt "dot.png") && (size =? 3)%N && feq (fmul ratio (f64_of_N 2)) (f64_of_N 25) && feq e (f64_of_N 0)
  | _ => false end = true /\ (0 < pixels dot)%N /\ (24 * pixels dot < 2 ^ 32)%N.
Proof. split; [vm_compute; reflexivity|]. cbn. lia. Qed.

(** C56: lossless codecs on images with at least one pixel *)
Theorem C56_passes_check : forall E c im data p s name saves, any_is_lossless c = true -> img_ok im -> (0 < pixels im < 2 ^ 32)%N ->
  (p = Debug -> 24 * pixels im < 2 ^ 32)%N -> env_ok E im -> any_encode E c im = Some (Ok data) ->
  exists f0, forall E', e_scan E' = e_scan E -> (2 <= e_stack E')%nat -> (f0 <= e_fuel E')%nat ->
  exists ratio e, measure_one p (B754_zero s) (any E E' c) name (Some im) saves = Some (Ok (name, N.of_nat (List.length data), ratio, e))
  /\ feq e (f64_of_N 0) = true.
Proof. exact passes_check. Qed.
Print Assumptions C56_passes_check.
(** All encode every such image; for zip(back) it has to be small (see C23 and C29). *)
Theorem C56_encodes : forall E c im, any_is_lossless c = true -> (c = Zip ZBack -> 8 + 11 * pixels im <= 32767)%N -> img_ok im -> im_px im <> [] -> env_ok E im ->
  exists data, any_encode E c im = Some (Ok data).
Proof. exact encodes. Qed.
Print Assumptions C56_encodes.
(** Conversely a codec that calls itself lossless, right or wrong, gets a record only
    for an image whose colours came back. *)
Theorem C56_record_right : forall p s c name im saves r, lossless c = true -> img_ok im -> (0 < pixels im < 2 ^ 32)%N ->
  (forall data y, dec c data = Some (Ok y) -> Forall rgba_ok (im_px y)) ->
  measure_one p (B754_zero s) c name (Some im) saves = Some (Ok r) ->
  exists data y, enc c im = Some (Ok data) /\ dec c data = Some (Ok y)
  /\ (forall i a b, nth_error (im_px im) i = Some a -> nth_error (im_px y) i = Some b -> to_rgb a = to_rgb b).
Proof. exact record_right. Qed.
Print Assumptions C56_record_right.
Definition env1 : env := mkEnv Debug curve (fun l => l) (@rev _) (@rev _)
  (@list_heap _) (@list_heap _) (fun _ => 6%nat) (mkOr (fun l => l) (fun _ => 0%N) 0 0) 100 100.
Definition all_lossless : list any_codec := [Delta; Hilbert (RLE (f64_of_N 0)); Hilbert MZip; Hufman; Zip ZDict; Zip ZBack].
Example C56_case : env_ok env1 pic /\ img_ok pic /\ (0 < pixels pic < 2 ^ 32)%N /\ (24 * pixels pic < 2 ^ 32)%N
  /\ forallb any_is_lossless all_lossless = true
  /\ forallb (fun c => match measure_one Debug (B754_zero true) (any env1 env1 c) (txt "pic.png") (Some pic) true with
                       | Some (Ok (_, size, _, e)) => (0 <? size)%N && feq e (f64_of_N 0) | _ => false end) all_lossless = true.
Proof.
  split; [|split; [exact pic_ok|split; [cbn; lia|split; [cbn; lia|split; vm_compute; reflexivity]]]].
  split.
  - intros l. apply Permutation_refl.
  - intros l. cbn. apply Permutation_sym, Permutation_rev.
  - apply list_heap_ok.
  - apply list_heap_ok.
  - intros n. cbn. lia.
  - apply curve_visits.
  - cbn. lia.
Qed.
