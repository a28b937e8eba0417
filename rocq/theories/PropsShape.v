(** * C87: the shape of Huffman trees (src/huf.rs), how deep they get, and the example of README.md:146-200. *)
From Verif Require Import Base Ser SerSpec Bit BitSpec Utils Huf HufSpec HufTop Img Float HilbertC CodecSpec CodecCases
  HufShapeSpec HufShape HufShapeTop HufReadme.

(** C87: the pairs of siblings can be listed so that the weights never decrease, lighter first.  (Gallager's sibling
    property: the tree at every moment merges two lightest subtrees.) *)
Theorem C87_siblings : forall t (eqb : val t -> val t -> bool), eqb_ok eqb ->
  forall ord, ord_ok ord -> forall H : heap (suffix (val t)), heap_ok suffix_cmp H ->
  forall items, items <> [] ->
  exists tree ps, build_tree H (ord (count_freqs eqb items)) = Ok tree /\ Permutation ps (siblings tree)
    /\ rising (flat_map (fun p => [weight eqb items (fst p); weight eqb items (snd p)]) ps).
Proof. exact huf_siblings. Qed.
Print Assumptions C87_siblings.
(** So bit 0 always leads to the half with fewer items, *)
Theorem C87_zero_is_lighter : forall t (eqb : val t -> val t -> bool), eqb_ok eqb ->
  forall ord, ord_ok ord -> forall H : heap (suffix (val t)), heap_ok suffix_cmp H ->
  forall items, items <> [] ->
  exists tree, build_tree H (ord (count_freqs eqb items)) = Ok tree
    /\ forall l r, In (l, r) (siblings tree) -> (weight eqb items l <= weight eqb items r)%N.
Proof. exact huf_lighter. Qed.
Print Assumptions C87_zero_is_lighter.
(** a code of n bits needs as many items as the Fibonacci number says, a symbol that makes up half of the items has at most
    one bit, and a more frequent symbol never has the longer code. *)
Theorem C87_lengths : forall t (eqb : val t -> val t -> bool), eqb_ok eqb ->
  forall ord, ord_ok ord -> forall H : heap (suffix (val t)), heap_ok suffix_cmp H ->
  forall items, items <> [] ->
  exists tree, build_tree H (ord (count_freqs eqb items)) = Ok tree
    /\ forall c x, path tree c x ->
         (fib (S (length c)) <= N.of_nat (length items))%N
         /\ ((N.of_nat (length items) <= 2 * occurs eqb x items)%N -> (length c <= 1)%nat)
         /\ (forall c' y, path tree c' y -> (occurs eqb y items < occurs eqb x items)%N -> (length c <= length c')%nat).
Proof. exact huf_lengths. Qed.
Print Assumptions C87_lengths.
(** The recursion of the decoders (src/huf.rs:330-348), for every image they are given back: at most 89 calls deep, and
    fewer for small images.  Foreign data can nest as deep as they like (C73). *)
Theorem C87_hufman_depth : forall ord H im, img_ok im -> ord_ok ord -> heap_ok suffix_cmp H -> im_px im <> [] ->
  exists out, run_vec (hufman_encode ord H im) = Ok out /\
  forall fuel, (im_w im * im_h im < fib (S fuel))%N \/ (89 <= fuel)%nat ->
  forall S (next : nextf S N) s s', yields next s out s' -> hufman_decode fuel next s = Some (Ok (opaque im)).
Proof. exact hufman_depth. Qed.
Print Assumptions C87_hufman_depth.
Theorem C87_delta_depth : forall p scan ord H im, img_ok im -> visits_all (im_w im) (im_h im) (scan (im_w im) (im_h im)) ->
  im_px im <> [] -> ord_ok ord -> heap_ok suffix_cmp H ->
  exists out, run_vec (delta_encode p scan ord H im) = Ok out /\
  forall fuel, (im_w im * im_h im < fib (S fuel))%N \/ (89 <= fuel)%nat ->
  forall p2 S (next : nextf S N) s s', yields next s out s' -> delta_decode p2 scan fuel next s = Some (Ok (opaque im)).
Proof. exact delta_depth. Qed.
Print Assumptions C87_delta_depth.
(** README.md:146-200: the differences and the number of bits are as shown, in whichever channels the levels are; the tree
    that it shows is never built. *)
Theorem C87_readme_tree_refuted : forall p scan ord H im r g b, img_ok im -> im_w im = 4%N -> im_h im = 4%N -> scan 4%N 4%N = readme_curve ->
  map to_rgb (im_px im) = map (tint r g b) readme_rows -> r || g || b = true -> ord_ok ord -> heap_ok suffix_cmp H ->
  let ds := map (tint_diff r g b) readme_diffs in
  diffs black (colours im (scan (im_w im) (im_h im))) = ds
  /\ (exists tree code, build_tree H (ord (count_freqs sc_eqb ds)) = Ok tree /\ (forall d, In d ds -> path tree (code d) d)
      /\ total_bits ds code = 36%N /\ tree <> tree_map (tint_diff r g b) readme_tree)
  /\ exists out, run_vec (delta_encode p scan ord H im) = Ok out /\ length out = 52%nat.
Proof. exact readme_delta. Qed.
Print Assumptions C87_readme_tree_refuted.

(** A code of three bits needs five items, and may have it; 3 of 6 items are enough for one bit, 2 of 5 are not. *)
Example C87_case : eqb_ok N.eqb /\ heap_ok suffix_cmp (@list_heap N) /\ fib 4 = 5%N
  /\ build_tree list_heap (count_freqs N.eqb [5; 6; 7; 7; 8]%N) = Ok (Branch (Leaf 7) (Branch (Leaf 8) (Branch (Leaf 5) (Leaf 6))))%N
  /\ siblings (Branch (Leaf 7) (Branch (Leaf 8) (Branch (Leaf 5) (Leaf 6))))%N
     = [(Leaf 7, Branch (Leaf 8) (Branch (Leaf 5) (Leaf 6))); (Leaf 8, Branch (Leaf 5) (Leaf 6)); (Leaf 5, Leaf 6)]%N
  /\ rising [1; 1; 1; 2; 2; 3]%N /\ ~ rising [1; 2; 1]%N
  /\ build_tree list_heap (count_freqs N.eqb [5; 6; 8; 8; 8; 7]%N) = Ok (Branch (Branch (Leaf 7) (Branch (Leaf 5) (Leaf 6))) (Leaf 8))%N
  /\ build_tree list_heap (count_freqs N.eqb [5; 6; 6; 8; 8]%N) = Ok (Branch (Leaf 8) (Branch (Leaf 5) (Leaf 6)))%N.
Proof.
  split; [exact N.eqb_eq|]. split; [apply list_heap_ok|]. split; [reflexivity|]. split; [vm_compute; reflexivity|]. split; [reflexivity|].
  split; [cbn; lia|]. split; [cbn; lia|]. split; vm_compute; reflexivity.
Qed.
Example C87_readme_case : let im := mkImg 4 4 (map (fun v => px v v v 255) readme_rows) in
  img_ok im /\ map to_rgb (im_px im) = map (tint true true true) readme_rows /\ visits_all 4 4 readme_curve
  /\ exists out, run_vec (delta_encode Debug (fun _ _ => readme_curve) (fun l => l) list_heap im) = Ok out /\ length out = 52%nat
     /\ delta_decode Release (fun _ _ => readme_curve) 6 list_next out = Some (Ok im) /\ (16 < fib 7)%N.
Proof.
  cbv zeta. split; [|split; [reflexivity|split]].
  - split; [reflexivity|]. split; [reflexivity|]. split; [reflexivity|]. split; [reflexivity|]. cbn. repeat constructor; cbn; lia.
  - apply readme_visits.
  - eexists. split; [vm_compute; reflexivity|]. split; [reflexivity|]. split; [vm_compute; reflexivity|]. reflexivity.
Qed.
