(** * Specification vocabulary for whole runs of the program (C68) and the rules
    of the Makefile (C69). *)
From Verif Require Import Base Prs Float Img HilbertC CodecSpec Select Bench BenchSpec Special SpecialSpec Program.

(** The path in a record *)
Definition rec_name (r : record) : text := let '(name, _, _, _) := r in name.
(** The error in a record *)
Definition rec_error (r : record) : f64 := let '(_, _, _, e) := r in e.
(** A size as a percentage of another, which a release build reduces to 32 bits *)
Definition percentage (size raw : N) : f64 := fmul (fdiv (f64_of_N size) (f64_of_N (raw mod 2 ^ 32))) (f64_of_N 100).
Section Spec.
  Variables (p : profile) (zero : f64) (opens : text -> option img) (saves : text -> bool) (E E' : text -> env) (c : any_codec).
  (** The record is that of an image: it was read, encoded and decoded. *)
  Definition describes (r : record) : Prop :=
    let '(name, size, ratio, e) := r in
    exists im data y, opens name = Some im /\ any_encode (E name) c im = Some (Ok data) /\ any_decode (E' name) c data = Some (Ok y)
    /\ size = N.of_nat (length data) /\ ratio = percentage size (24 * pixels im) /\ (p = Debug -> 24 * pixels im < 2 ^ 32)%N
    /\ compute_error p zero im y = Ok e.
  (** Records of images that came back changed are kept only for lossy codecs, and if the
      changed image could be saved. *)
  Definition passes (r : record) : Prop := feq (rec_error r) (f64_of_N 0) = true \/ saves (rec_name r) = true /\ any_is_lossless c = false.
  (** Why a path has no record: the image cannot be read, encoded or decoded, or it came
      back changed and could not be saved or should have come back unchanged. *)
  Definition fails (path : text) : Prop :=
    opens path = None
    \/ exists im, opens path = Some im
       /\ (any_encode (E path) c im = Some Err
           \/ exists data, any_encode (E path) c im = Some (Ok data)
              /\ (any_decode (E' path) c data = Some Err
                  \/ exists y e, any_decode (E' path) c data = Some (Ok y) /\ compute_error p zero im y = Ok e /\ feq e (f64_of_N 0) = false
                     /\ (saves path = false \/ any_is_lossless c = true))).
  (** Images that all lossless codecs can handle *)
  Definition fine (path : text) : Prop :=
    exists im, opens path = Some im /\ img_ok im /\ (0 < pixels im)%N /\ (24 * pixels im < 2 ^ 32)%N /\ env_ok (E path) im.
  (** Images that zip(back) can handle, whatever their colours *)
  Definition tiny (path : text) : Prop := exists im, opens path = Some im /\ (8 + 11 * pixels im <= 32767)%N.
  (** Images that can be dumped *)
  Definition dumpable (path : text) : Prop :=
    exists d name im, path = d ++ name /\ directory d /\ plain_name name /\ opens path = Some im /\ img_ok im /\ (im_w im <= 2 ^ 31)%N /\ (im_h im <= 2 ^ 31)%N.
End Spec.
(** A distance: digits and points *)
Definition distance (x : text) : Prop := x <> [] /\ Forall (fun c => 48 <= c <= 57 \/ c = 46)%N x.
(** Running a rule selects the codec, and afterwards the target holds the new table,
    whatever files there were before. *)
Definition makes (p : profile) (is_digit : N -> bool) (parse_f64 : text -> option f64) (show : f64 -> text) (r : rule) (c : any_codec) : Prop :=
  any_codec_from_str p is_digit parse_f64 (r_codec r) = POk c
  /\ forall fs rows, exists fs', recipe r (table_file show c) rows fs = Some fs' /\ fs' (r_target r) = Some rows.
