(** * Specification vocabulary for the data that the image decoders accept (C73-C74). *)
From Verif Require Import Base Ser SerSpec Bit BitSpec Utils Huf HufSpec Dict DictSpec Back BackSpec Img Float HilbertC CodecSpec ClusterC ClusterSpec.

(** Data that starts with dimensions for which no buffer can be allocated *)
Definition too_large (data : list N) : Prop :=
  exists w h rest, u32_ok w /\ u32_ok h /\ (2 ^ 63 <= 3 * w * h)%N /\ data = le32 w ++ le32 h ++ rest.

(** ** Huffman-coded data *)
(** A tree of symbols of type [u] and its serialized form *)
Definition tree_bytes (u : ty) (t : bintrie (val u)) (bs : list N) : Prop :=
  Forall (wf u) (leaves t) /\ trie_format (format u) t = Some bs.
(** [bits] starts with a code for each of [items], in order; [rest] follows. *)
Definition spells {A} (t : bintrie A) (bits : list bool) (items : list A) (rest : list bool) : Prop :=
  exists codes, Forall2 (path t) codes items /\ bits = concat codes ++ rest.
Definition no_symbol {A} (t : bintrie A) (bits : list bool) : Prop := forall code x rest, path t code x -> bits <> code ++ rest.
(** A file for [im]: dimensions, any tree, codes for all pixels, anything. *)
Definition hufman_file (im : img) (data : list N) : Prop :=
  img_ok im /\ is_opaque im
  /\ exists t hdr body rest, data = dims im ++ hdr ++ body /\ tree_bytes (TRgb TU8) t hdr
     /\ spells t (bytes_bits MsbFirst body) (map to_rgb (im_px im)) rest.

(** ** Colours along a traversal *)
(** The colours [cs] are on the traversal, in order; what remains is black. *)
Definition shows (ps : list (N * N)) (cs : list (rgb N)) (im : img) : Prop :=
  colours im ps = firstn (length ps) cs ++ repeat black (length ps - length cs).
(** A traversal of [n] positions reads enough from a stream that gives [cs] and then
    ends so. *)
Definition suffices (n : nat) (cs : list (rgb N)) (e : ending) : Prop := e = Finished \/ (n <= length cs)%nat.

(** Differences: [sums t n last bits cs e]: reading at most [n] colours gives [cs].  The
    stream ends silently where no symbol follows, and aborts at a difference that
    leads out of the colours. *)
Inductive sums (t : bintrie (list Z)) : nat -> rgb N -> list bool -> list (rgb N) -> ending -> Prop :=
| sums_enough last bits : sums t 0 last bits [] Finished
| sums_end n last bits : no_symbol t bits -> sums t (S n) last bits [] Finished
| sums_colour n last code c bits cs e : rgb_ok c -> path t code (diff1 c last) -> sums t n c bits cs e ->
    sums t (S n) last (code ++ bits) (c :: cs) e
| sums_outside n last code d bits : path t code d -> (forall c, rgb_ok c -> d <> diff1 c last) ->
    sums t (S n) last (code ++ bits) [] Aborted.
Definition delta_file (scan : scanner) (im : img) (data : list N) : Prop :=
  img_ok im /\ is_opaque im
  /\ exists t hdr body cs, data = dims im ++ hdr ++ body /\ tree_bytes sc_ty t hdr
     /\ sums t (length (scan (im_w im) (im_h im))) black (bytes_bits MsbFirst body) cs Finished
     /\ shows (scan (im_w im) (im_h im)) cs im.

(** Runs: an empty run aborts, and so does a run that is cut or has no proper colour. *)
Definition no_pixel (bs : list N) : Prop := forall c rest, rgb_ok c -> bs <> pixel_bytes c ++ rest.
Inductive run_text : list N -> list (rgb N) -> ending -> Prop :=
| run_text_end : run_text [] [] Finished
| run_text_run n c bs cs e : (1 <= n <= 255)%N -> rgb_ok c -> run_text bs cs e ->
    run_text (run_bytes (n, c) ++ bs) (repeat c (N.to_nat n) ++ cs) e
| run_text_empty bs : run_text (0%N :: bs) [] Aborted
| run_text_cut n bs : (1 <= n <= 255)%N -> no_pixel bs -> run_text (n :: bs) [] Aborted.
Definition rle_file (scan : scanner) (im : img) (data : list N) : Prop :=
  img_ok im /\ is_opaque im
  /\ exists body cs e, data = dims im ++ body /\ run_text body cs e
     /\ suffices (length (scan (im_w im) (im_h im))) cs e /\ shows (scan (im_w im) (im_h im)) cs im.

(** Pixels from a byte stream that gives [bs] and ends so: a pixel that is malformed, or
    cut by a silent end, ends the pixels silently.  A vector says its length first. *)
Definition cut_vector (bs : list N) : Prop :=
  (length bs < 8)%nat \/ exists n q, u64_ok n /\ bs = le64 n ++ q /\ (N.of_nat (length q) < n)%N.
Inductive pixel_text : list N -> ending -> list (rgb N) -> ending -> Prop :=
| pixel_text_pixel c bs e cs e' : rgb_ok c -> pixel_text bs e cs e' -> pixel_text (pixel_bytes c ++ bs) e (c :: cs) e'
| pixel_text_end bs e : no_pixel bs -> ~ (cut_vector bs /\ e = Aborted) -> pixel_text bs e [] Finished
| pixel_text_abort bs : cut_vector bs -> pixel_text bs Aborted [] Aborted.
Definition hilbert_zip_file (scan : scanner) (im : img) (data : list N) : Prop :=
  img_ok im /\ is_opaque im
  /\ exists body out e cs e', data = dims im ++ body /\ expands initial_dict (words_of body) out e /\ pixel_text out e cs e'
     /\ suffices (length (scan (im_w im) (im_h im))) cs e' /\ shows (scan (im_w im) (im_h im)) cs im.

(** ** Voronoi *)
Definition voronoi_file (w h : N) (cs : list color_pos) (data : list N) : Prop :=
  buffer_fits w h /\ Forall color_pos_ok cs /\ u64_ok (N.of_nat (length cs)) /\ exists rest, data = voronoi_bytes w h cs ++ rest.
(** [c] is the first element of [cs] with the least key. *)
Definition first_least (key : color_pos -> Z) (cs : list color_pos) (c : color_pos) : Prop :=
  exists before after, cs = before ++ c :: after /\ Forall (fun d => (key c < key d)%Z) before /\ Forall (fun d => (key c <= key d)%Z) after.
(** Every pixel has the colour of a point that is nearest, counting squared distances
    modulo 2^32. *)
Definition voronoi_shows (w h : N) (cs : list color_pos) (im : img) : Prop :=
  im_w im = w /\ im_h im = h /\ is_opaque im /\ N.of_nat (length (im_px im)) = (w * h)%N
  /\ forall x y, (x < w)%N -> (y < h)%N ->
     exists c, first_least (fun d => (plane_dist x y d mod 2 ^ 32)%Z) cs c /\ to_rgb (pixel_at im (x, y)) = cp_color c.
(** Points for which no subtraction, square or sum overflows *)
Definition no_overflow (w h : N) (cs : list color_pos) : Prop := forall c x y, In c cs -> (x < w)%N -> (y < h)%N ->
  (x <= cp_x c)%N /\ (y <= cp_y c)%N /\ (plane_dist x y c < 2 ^ 32)%Z.
