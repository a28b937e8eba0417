(** * Specification vocabulary for what hilbert(rle) and the Huffman decoder print (C91). *)
From Verif Require Import Base Ser SerSpec Bit BitSpec Utils Huf HufSpec Dict Img Float HilbertC CodecSpec ClusterSpec AcceptSpec Says HilbertSays.

(** The line that tells the coding, and whether [x] continues the run [a] *)
Definition coding (d : f64) : notice := if feq d (f64_of_N 0) then UsingExact else UsingApprox.
Definition joining (d : f64) : list (rgb N) -> rgb N -> bool :=
  if feq d (f64_of_N 0) then joins_exact rgb_eqb else within d.
(** Runs of the greatest length are reported. *)
Definition reported {T} (runs : list (list T)) : list notice :=
  map (fun run => MaxReached (N.of_nat (length run))) (filter (fun run => length run =? 255)%nat runs).
(** The runs that are looked for before a writer of this room is full: a run takes 12 bytes. *)
Definition begun {T} (room : option nat) (runs : list T) : list T :=
  match room with None => runs | Some k => firstn (S (k / 12)) runs end.

(** Data with proper dimensions and a proper tree, but too few symbols *)
Definition too_few (data : list N) : Prop :=
  exists w h t hdr body, buffer_fits w h /\ data = le32 w ++ le32 h ++ hdr ++ body /\ tree_bytes (TRgb TU8) t hdr
    /\ forall items rest, spells t (bytes_bits MsbFirst body) items rest -> N.of_nat (length items) <> (w * h)%N.
