(** * Specification vocabulary for decoding data that no encoder wrote (C64-C66). *)
From Verif Require Import Base Ser SerSpec Utils Huf Dict DictSpec Back BackSpec Img Float HilbertC CodecSpec ClusterC Prs Select.

(** ** zip-back *)
(** A distance stays inside the last 65535 bytes of the output so far. *)
Definition reaches (h : list N) (x : symbol) : Prop :=
  match x with Explicit _ => True | LookBack _ back => (back <= N.min (N.of_nat (length h)) 65535)%N end.
(** [unpacks h bs out e]: after the output [h], the bytes [bs] give [out] and end so.
    Data ends silently where a symbol header is cut, and also at a symbol that stands
    for no bytes, whatever follows it. *)
Inductive unpacks : list N -> list N -> list N -> ending -> Prop :=
| unpacks_end h bs : (length bs < 2)%nat -> unpacks h bs [] Finished
| unpacks_symbol h x bs out e : symbol_ok x -> reaches h x -> symbol_text h x <> [] ->
    unpacks (h ++ symbol_text h x) bs out e -> unpacks h (symbol_bytes x ++ bs) (symbol_text h x ++ out) e
| unpacks_empty h x bs : symbol_ok x -> reaches h x -> symbol_text h x = [] -> unpacks h (symbol_bytes x ++ bs) [] Finished
| unpacks_far h x bs : symbol_ok x -> ~ reaches h x -> unpacks h (symbol_bytes x ++ bs) [] Aborted
| unpacks_cut_literal h n d : (n <= 32767)%N -> (N.of_nat (length d) < n)%N -> unpacks h (le16 n ++ d) [] Aborted
| unpacks_cut_distance h len q : (len <= 32767)%N -> (length q < 2)%nat -> unpacks h (le16 (32768 + len) ++ q) [] Finished.

(** ** Image codecs *)
Definition is_zip (c : any_codec) : bool := match c with Zip _ => true | _ => false end.
(** What the zip codecs make of data that unpacks to [out] and ends so: an image exactly
    if [out] starts with the uncompressed form of one; an abort where the dimensions are
    too large for memory, or where unpacking aborts before the image is complete. *)
Definition accepts (out : list N) (e : ending) (got : res img) : Prop :=
  (forall im, got = Ok im <-> img_ok im /\ is_opaque im /\ exists rest, out = zip_input im ++ rest)
  /\ (e = Finished -> (got = Panic <-> exists w h rest, u32_ok w /\ u32_ok h /\ (2 ^ 63 <= 3 * w * h)%N /\ out = le32 w ++ le32 h ++ rest))
  /\ (e = Aborted -> forall im, img_ok im -> strict_prefix out (zip_input im) -> got = Panic).
