(** * Squared errors: how far colours are from the pixels they stand for. *)
From Coq Require Import Permutation.
From Verif Require Import Base Ser Img HilbertC CodecSpec Kmeans ClusterC.

(** Sum of a function over a list *)
Definition zsum {A} (f : A -> Z) (l : list A) : Z := fold_right (fun x s => (f x + s)%Z) 0%Z l.
(** Total squared distance of the colours [l] from [c] *)
Definition spread (l : list (rgb N)) (c : rgb N) : Z := zsum (fun x => sq_dist x c) l.
(** Total squared distance of two images, pixel by pixel *)
Definition square_error (x y : img) : Z := zsum (fun q : rgba * rgba => sq_dist (to_rgb (fst q)) (to_rgb (snd q))) (combine (im_px x) (im_px y)).
(** Another colour for every colour *)
Definition repaint (g : rgb N -> rgb N) (im : img) : img := mkImg (im_w im) (im_h im) (map (fun p : rgba => (g (fst p), snd p)) (im_px im)).
(** One colour per run *)
Definition flat_on (runs : list (list (rgb N))) (l : list (rgb N)) : Prop :=
  exists cs, length cs = length runs /\ l = concat (map (fun q : list (rgb N) * rgb N => repeat (snd q) (length (fst q))) (combine runs cs)).
(** Total squared distance of weighted colours from [c] *)
Definition weighted_spread (l : list color_count) (c : rgb N) : Z := zsum (fun q => Z.of_N (cc_count q) * sq_dist (cc_color q) c)%Z l.
(** Total squared distance, in the plane and in colour, of points from [c] *)
Definition position_spread (l : list color_pos) (c : color_pos) : Z :=
  zsum (fun q => (Z.of_N (cp_x q) - Z.of_N (cp_x c)) ^ 2 + (Z.of_N (cp_y q) - Z.of_N (cp_y c)) ^ 2 + sq_dist (cp_color q) (cp_color c))%Z l.
(** Total weighted squared distance of points from the centroids of their clusters *)
Definition inertia {T} (col : T -> rgb N) (wt : T -> N) (cs : list T) (asg : list (list T)) : Z :=
  zsum (fun q : T * list T => zsum (fun x => Z.of_N (wt x) * sq_dist (col (fst q)) (col x))%Z (snd q)) (combine cs asg).
