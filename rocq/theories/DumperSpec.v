(** * Specification vocabulary for dumps and their files (C82). *)
From Coq Require Import String.
From Verif Require Import Base Prs Img HilbertC HufSpec CodecSpec Special.
Close Scope string_scope.
Open Scope list_scope.

(** The three orders in which pixels are dumped, with the word in the file name *)
Inductive traversal (scan : scanner) (im : img) : text -> list (N * N) -> Prop :=
| along_rect : traversal scan im (txt "rect") (scan (im_w im) (im_h im))
| along_small s : small_side (im_w im) (im_h im) s -> traversal scan im (txt "small") (scan s s)
| along_large s : large_side (im_w im) (im_h im) s ->
    traversal scan im (txt "large") (filter (fun q => (fst q <? im_w im) && (snd q <? im_h im))%N (scan s s)).
(** A complete file: the heading and a line per pixel *)
Definition sheet (l : list rgba) : text :=
  txt "red,blue,green" ++ [10%N] ++ concat (map (fun px : rgba => let '(r, g, b) := to_rgb px in decimal r ++ txt "," ++ decimal g ++ txt "," ++ decimal b ++ [10%N]) l).
(** Images with sides up to 2^31 *)
Definition moderate (opens : text -> option img) (path : text) : Prop :=
  forall im, opens path = Some im -> img_ok im /\ (im_w im <= 2 ^ 31)%N /\ (im_h im <= 2 ^ 31)%N.
(** One of the files of a path (for the names see C58 and C59) *)
Definition file_of (path f : text) : Prop := exists meth, In meth [txt "rect"; txt "small"; txt "large"] /\ dump_file path meth = Ok f.
Section Spec.
  Variables (scan : scanner) (creates writes : text -> bool).
  (** A file with what a path's dump has written: the complete text if writing works,
      otherwise the start of it *)
  Definition partly (path : text) (im : img) (f : text) (fs' : text -> option text) : Prop :=
    creates f = true /\ exists meth ps t, traversal scan im meth ps /\ dump_file path meth = Ok f /\ fs' f = Some t /\ prefix t (sheet (map (pixel_at im) ps))
    /\ (writes f = true -> t = sheet (map (pixel_at im) ps)).
  (** Why the dump of a readable image stops: it has no file name, or one of the files
      cannot be created or written *)
  Definition reason (path : text) : Prop :=
    (exists m, In m [txt "rect"; txt "small"; txt "large"] /\ dump_file path m = Panic)
    \/ (exists m f, In m [txt "rect"; txt "small"; txt "large"] /\ dump_file path m = Ok f /\ (creates f = false \/ writes f = false)).
End Spec.
