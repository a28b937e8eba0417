(** * The image encoders as writers (src/codec.rs:64-70): [any_encode] of Bench.v before
    the writer is a [Vec]. *)
From Verif Require Import Base Ser Huf Img Float HilbertC Kmeans ClusterC Prs Regex Select Bench.

(** src/codec.rs:64-70; [None]: a loop of the clustering ran out of fuel *)
Definition any_write (E : env) (c : any_codec) (im : img) : option (io unit) :=
  match c with
  | ClusterColors n => cluster_colors_encode (e_profile E) (e_kmeans E) (e_ord E) (e_ord2 E) (e_heap E) n im
  | VoronoiCluster n => voronoi_encode (e_profile E) (e_kmeans E) n im
  | Delta => Some (delta_encode (e_profile E) (e_scan E) (e_ord_diff E) (e_heap_diff E) im)
  | Hilbert m => Some (hilbert_encode (e_scan E) (e_fuel E) m im)
  | Hufman => Some (hufman_encode (e_ord E) (e_heap E) im)
  | Zip k => Some (zip_encode (e_profile E) (e_caps E) (e_fuel E) k im)
  end.
(** A writer that takes everything but cannot be flushed *)
Definition unflushable : writer := mkW [] None true.
