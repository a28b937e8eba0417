(** * Specification vocabulary for what the codecs print (C94). *)
From Verif Require Import Base Img Float HilbertC Kmeans KmeansSpec ClusterC Select Bench BenchSpec TrieStats BackSays BackSaysSpec HilbertSays HilbertSaysSpec DictSays KmeansSays CodecSays.

(** Counters of the clustering cannot overflow, and [nodes] is enough for the statistics *)
Definition talk_ok (E : env) (nodes : nat) (c : any_codec) (im : img) : Prop :=
  match c with
  | ClusterColors n | VoronoiCluster n => sort_ok (or_sort (e_kmeans E)) /\ (n < 2 ^ 31)%N /\ (pixels im * n < 2 ^ 64)%N
  | Hilbert MZip | Zip ZDict => (11 * N.to_nat (pixels im) + 9 < nodes)%nat
  | _ => True
  end.
(** The form of what a codec prints when it has encoded the image *)
Definition printed (c : any_codec) (im : img) (out : list codec_line) : Prop :=
  match c with
  | Hufman | Delta => out = []
  | ClusterColors _ | VoronoiCluster _ => exists lines n, out = map FromClustering (Grew 0 :: lines ++ [Iterations n])
  | Hilbert (RLE d) => exists n, out = map FromHilbert (coding d :: repeat (MaxReached 255) n)
  | Hilbert MZip | Zip ZDict => exists n st, out = map FromDict (repeat Converting (S n) ++ [TrieStats st])
  | Zip ZBack => exists o, out = map FromBack o /\ fold_right N.add 0%N (flat_map announced o) = (8 + 11 * pixels im)%N
  end.
