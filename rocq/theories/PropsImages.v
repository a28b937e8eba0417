(** * The image files that the benchmark reads and writes (C80).

    In every run: any order of the tasks, any contents of the files at the start. *)
From Coq Require Import String.
From Flocq Require Import BinarySingleNaN.
From Verif Require Import Base Prs Float Img HilbertC CodecSpec CodecCases Select Bench BenchSpec Special Images ImagesSpec Program ProgramSpec DistTop PropsBench ImagesProofs ImagesTop.
Close Scope string_scope.
Open Scope list_scope.

(** When no input is a file that may be written to, every image gets the outcome it has
    on its own, from the files at the start. *)
Theorem C80_independent : forall p zero node saves paths fs E E' c s i path r, apart node paths ->
  isteps p zero (fun q => any (E q) (E' q) c) node saves paths (i_init paths fs) s ->
  nth_error paths i = Some path -> nth_error (i_tasks s) i = Some (PEnded r) ->
  Program.job p zero (fun q => fs (node q)) saves E E' c path = Some r \/ (file_name path = None /\ r = Panic).
Proof. exact independent. Qed.
Print Assumptions C80_independent.
(** Only files under output of images that came back changed are written to. *)
Theorem C80_only_outputs : forall p zero node saves paths fs c s n, apart node paths ->
  isteps p zero c node saves paths (i_init paths fs) s ->
  (forall path im y, In path paths -> fs (node path) = Some im -> changed p zero (c path) im y -> ~ belongs node path n) -> i_files s n = fs n.
Proof. exact only_outputs. Qed.
Print Assumptions C80_only_outputs.
(** A changed image is found there afterwards, if no other path has the same file. *)
Theorem C80_saved : forall p zero node saves paths fs c s i path im y n r, apart node paths ->
  isteps p zero c node saves paths (i_init paths fs) s ->
  nth_error paths i = Some path -> fs (node path) = Some im -> changed p zero (c path) im y ->
  nth_error (i_tasks s) i = Some (PEnded r) -> r <> Panic -> saves path = true ->
  belongs node path n -> (forall j q, j <> i -> nth_error paths j = Some q -> ~ belongs node q n) -> i_files s n = Some y.
Proof. exact is_saved. Qed.
Print Assumptions C80_saved.
(** Every run can be brought to its end. *)
Theorem C80_ends : forall p zero node saves paths fs c,
  (forall path, In path paths -> exists r, measure_one p zero (c path) path (fs (node path)) (saves path) = Some r) -> apart node paths ->
  forall s, isteps p zero c node saves paths (i_init paths fs) s -> exists s', isteps p zero c node saves paths s s' /\ Forall over (i_tasks s').
Proof. exact ends. Qed.
Print Assumptions C80_ends.
(** The lossless codecs write no image file, wherever the inputs are. *)
Theorem C80_lossless : forall p sg node saves paths fs E c, any_is_lossless c = true -> (c = Zip ZBack -> Forall (tiny (fun q => fs (node q))) paths) -> Forall (fine (fun q => fs (node q)) E) paths ->
  exists f0, forall E', (forall path, In path paths -> e_scan (E' path) = e_scan (E path) /\ (2 <= e_stack (E' path))%nat /\ (f0 <= e_fuel (E' path))%nat) ->
  forall s, isteps p (B754_zero sg) (fun q => any (E q) (E' q) c) node saves paths (i_init paths fs) s ->
  (forall n, i_files s n = fs n) /\ forall i path r, nth_error paths i = Some path -> nth_error (i_tasks s) i = Some (PEnded r) ->
    exists rc, r = Ok rc /\ Program.job p (B754_zero sg) (fun q => fs (node q)) saves E E' c path = Some (Ok rc) /\ feq (rec_error rc) (f64_of_N 0) = true.
Proof. exact lossless_files. Qed.
Print Assumptions C80_lossless.
(** Inputs under output: the table depends on the order of the tasks. *)
Theorem C80_any_order_refuted : exists paths s s' r r',
  let run := isteps Debug (B754_zero false) blur_codec place all_fine paths (i_init paths album) in
  run s /\ run s' /\ complete s /\ complete s'
  /\ nth_error (i_tasks s) 1 = Some (PEnded (Ok r)) /\ nth_error (i_tasks s') 1 = Some (PEnded (Ok r'))
  /\ feq (rec_error r) (f64_of_N 0) = true /\ feq (rec_error r') (f64_of_N 0) = false.
Proof. exact (ex_intro _ both schedule). Qed.
Print Assumptions C80_any_order_refuted.
(** Inputs under output are overwritten. *)
Theorem C80_inputs_kept_refuted : exists paths path im y s,
  isteps Debug (B754_zero false) blur_codec place all_fine paths (i_init paths album) s /\ complete s /\ In path paths
  /\ album (place path) = Some im /\ i_files s (place path) = Some y /\ y <> im.
Proof. exact input_overwritten. Qed.
Print Assumptions C80_inputs_kept_refuted.
(** Two images with the same name up to the extension: one wrong image is lost. *)
Theorem C80_shared_refuted : exists path path' im im' y y' n s, let paths := [path; path'] in
  apart place paths /\ isteps Debug (B754_zero false) blur_codec place all_fine paths (i_init paths album) s /\ complete s
  /\ album (place path) = Some im /\ album (place path') = Some im'
  /\ belongs place path n /\ belongs place path' n
  /\ changed Debug (B754_zero false) (blur_codec path) im y /\ changed Debug (B754_zero false) (blur_codec path') im' y'
  /\ i_files s n = Some y' /\ y <> y'.
Proof. exact shared_lost. Qed.
Print Assumptions C80_shared_refuted.
Example C80_case : apart place one /\ changed Debug (B754_zero false) (any env1 env1 blur) (reds [10; 20; 30]%N) (reds [20; 20; 20]%N)
  /\ belongs place (txt "x/a.png") 1 /\ album (place (txt "x/a.png")) = Some (reds [10; 20; 30]%N)
  /\ (exists s, isteps Debug (B754_zero false) blur_codec place all_fine one (i_init one album) s /\ complete s)
  /\ Forall (fine (fun q => album (place q)) (fun _ => env1)) one.
Proof. exact images_case. Qed.
