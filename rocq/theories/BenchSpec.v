(** * Specification vocabulary for the benchmark (C50-C52, C56). *)
From Coq Require Import Reals.
From Verif Require Import Base Huf HufSpec Back BackSpec Img HilbertC CodecSpec Select Bench.

(** ** The table *)
(** The records of the images that were measured without an error *)
Fixpoint successes (jobs : list (res record)) : list record :=
  match jobs with
  | [] => []
  | Ok r :: jobs => r :: successes jobs
  | _ :: jobs => successes jobs
  end.
(** A table with these records: no record, no header *)
Definition table (l : list record) : list row := match l with [] => [] | _ => Header :: map Row l end.

(** ** The error *)
Definition mean_square_error (x y : img) : R :=
  (IZR (fold_right (fun q z => sq_dist (to_rgb (fst q)) (to_rgb (snd q)) + z)%Z 0%Z (combine (im_px x) (im_px y)))
   / IZR (Z.of_N (im_w x * im_h x)))%R.
(** The number of pixels *)
Definition pixels (im : img) : N := (im_w im * im_h im)%N.

(** ** The environment *)
(** Contracts of the environment for one image, and fuel that is large enough *)
Record env_ok (E : env) (im : img) : Prop := {
  eo_ord : ord_ok (e_ord E);
  eo_ord_diff : ord_ok (e_ord_diff E);
  eo_heap : heap_ok suffix_cmp (e_heap E);
  eo_heap_diff : heap_ok suffix_cmp (e_heap_diff E);
  eo_caps : caps_ok (e_caps E);
  eo_scan : visits_all (im_w im) (im_h im) (e_scan E (im_w im) (im_h im));
  eo_fuel : (11 * N.to_nat (pixels im) + 8 < e_fuel E)%nat }.
