(** * Model of what zip(dict) and hilbert(zip) print when they encode an image
    (src/codec/zipc.rs:15-25, src/codec/hilbertc.rs:26-53).

    The functions of Img.v and HilbertC.v once more, with the output of the compressor. *)
From Verif Require Import Base Ser Dict Img HilbertC Says DictSays.

(** src/codec/zipc.rs:15-25 for [Dict]; [nodes]: see DictSays.v *)
Definition zip_dict_image_says (nodes fuel : nat) (im : img) : says dict_line writer unit :=
  zip_dict_says zip_bytes_next nodes fuel (zip_bytes im).
(** src/codec/hilbertc.rs:26-30, 47-53 for [Zip], which has no line of its own *)
Definition hilbert_zip_says (scan : scanner) (nodes fuel : nat) (im : img) : says dict_line writer unit :=
  says_bind (hush (ser (TPair TU32 TU32) (im_w im, im_h im))) (fun _ =>
  says_bind (hush (io_lift (linearize_rect scan im))) (fun l =>
  zip_dict_says (ss_next (ser (TRgb TU8))) nodes fuel (ss_from_iter (map to_rgb l)))).
