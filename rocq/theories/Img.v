(** * Model of the images and of the codecs of src/codec/hufc.rs and src/codec/zipc.rs. *)
From Verif Require Import Base Ser Bit Utils Huf Dict Back.

(** ** Images

    A [DynamicImage] as every codec sees it ([GenericImageView], the [image] crate):
    dimensions and 8-bit RGBA pixels, row by row.  [Rgb8] images have alpha 255. *)
Definition rgba : Type := rgb N * N.
(** width, height, pixels *)
Record img := mkImg { im_w : N; im_h : N; im_px : list rgba }.

(** [Rgba::to_rgb] drops the alpha channel. *)
Definition to_rgb (p : rgba) : rgb N := fst p.
(** [==] on colours *)
Definition rgb_eqb (a b : rgb N) : bool :=
  let '(r1, g1, b1) := a in let '(r2, g2, b2) := b in ((r1 =? r2) && (g1 =? g2) && (b1 =? b2))%N.
(** [From<RgbImage> for DynamicImage], seen through [GenericImageView] *)
Definition from_rgb (w h : N) (l : list (rgb N)) : img := mkImg w h (map (fun c => (c, 255%N)) l).
(** Position of pixel [(x, y)] in the buffer *)
Definition px_index (w x y : N) : nat := N.to_nat (y * w + x).
(** [get_pixel]: panics out of bounds *)
Definition get_pixel (im : img) (p : N * N) : res rgba :=
  let '(x, y) := p in
  if ((x <? im_w im) && (y <? im_h im))%N
  then match nth_error (im_px im) (px_index (im_w im) x y) with Some c => Ok c | None => Panic end
  else Panic.

(** [ImageBuffer::<Rgb<u8>, _>::new]: all black.  The number of bytes has to fit
    [isize] (otherwise a panic); memory is otherwise taken as unlimited. *)
Definition black : rgb N := (0, 0, 0)%N.
(** See above. *)
Definition buffer_new (w h : N) : res (list (rgb N)) :=
  if (3 * w * h <? 2 ^ 63)%N then Ok (repeat black (N.to_nat (w * h))) else Panic.

(** src/codec.rs:22-26 [create_image_buffer_standard] *)
Definition create_image_buffer_standard {S} (next : nextf S N) : rd S (N * N * list (rgb N)) :=
  rd_bind (deser (TPair TU32 TU32) S next) (fun d =>
  rd_bind (rd_lift (buffer_new (fst d) (snd d))) (fun b => rd_ret (fst d, snd d, b))).

(** ** Hufman (src/codec/hufc.rs:9-48) *)
(** src/codec/hufc.rs:12-17 *)
Definition hufman_encode (ord : list (rgb N * N) -> list (rgb N * N)) (H : heap (suffix (rgb N))) (im : img) : io unit :=
  io_bind (ser (TPair TU32 TU32) (im_w im, im_h im)) (fun _ =>
  huf_encode_all rgb_eqb (ser (TRgb TU8)) ord H (map to_rgb (im_px im))).
(** src/codec/hufc.rs:19-40.  [fuel]: depth of the tree reader ([None] when it runs
    out).  After a missing symbol the stream is polled once more (line 31). *)
Definition hufman_decode (fuel : nat) {S} (next : nextf S N) (s : S) : option (res img) :=
  match create_image_buffer_standard next s with
  | (Ok (w, h, _), s) =>
      match huf_decode_all (deser (TRgb TU8)) fuel next s with
      | None => None
      | Some (Ok (t, bits), _) =>
          match rd_repeat (dec_next t next) (w * h)%N bits with
          | (Ok l, _) => Some (Ok (from_rgb w h l))
          | (Err, bits) => match dec_next t next bits with (Panic, _) => Some Panic | _ => Some Err end
          | (Panic, _) => Some Panic
          end
      | Some (Err, _) => Some Err
      | Some (Panic, _) => Some Panic
      end
  | (Err, _) => Some Err
  | (Panic, _) => Some Panic
  end.

(** ** Zip (src/codec/zipc.rs:9-60) *)
Inductive zip_kind := ZDict | ZBack.

(** [Iterator::chain]: the first iterator is dropped once it has ended. *)
Definition chain_next {SA SB A} (na : nextf SA A) (nb : nextf SB A) : nextf (option SA * SB) A :=
  fun st => match st with
  | (Some a, b) => match na a with
                   | (Ok x, a) => (Ok x, (Some a, b))
                   | (Err, _) => let '(r, b) := nb b in (r, (None, b))
                   | (Panic, a) => (Panic, (Some a, b))
                   end
  | (None, b) => let '(r, b) := nb b in (r, (None, b))
  end.
(** src/codec/zipc.rs:16-19: the bytes of an image *)
Definition zip_bytes (im : img) : option (ser_stream (N * N)) * ser_stream (rgb N) :=
  (Some (ss_from_value (im_w im, im_h im)), ss_from_iter (map to_rgb (im_px im))).
(** src/codec/zipc.rs:16-19: [next] of the chain *)
Definition zip_bytes_next : nextf (option (ser_stream (N * N)) * ser_stream (rgb N)) N :=
  chain_next (ss_next (ser (TPair TU32 TU32))) (ss_next (ser (TRgb TU8))).
(** src/codec/zipc.rs:15-25.  [pr], [caps], [fuel]: see Dict.v and Back.v. *)
Definition zip_encode (pr : profile) (caps : nat -> nat) (fuel : nat) (k : zip_kind) (im : img) : io unit :=
  match k with
  | ZDict => zip_dict_encode zip_bytes_next fuel (zip_bytes im)
  | ZBack => zip_back_encode zip_bytes_next pr caps fuel (zip_bytes im)
  end.
(** src/codec/zipc.rs:28-36 *)
Definition rebuild_image {S} (next : nextf S N) (s : S) : res img :=
  match deser (TPair TU32 TU32) S next s with
  | (Ok (w, h), s) =>
      match buffer_new w h with
      | Ok _ => match rd_repeat (deser (TRgb TU8) S next) (w * h)%N s with
                | (Ok l, _) => Ok (from_rgb w h l)
                | (Err, _) => Err
                | (Panic, _) => Panic
                end
      | _ => Panic
      end
  | (Err, _) => Err
  | (Panic, _) => Panic
  end.
(** src/codec/zipc.rs:27-48.  [stack]: see [dd_next]. *)
Definition zip_decode (pr : profile) (stack : nat) (k : zip_kind) {S} (next : nextf S N) (s : S) : res img :=
  match k with
  | ZDict => rebuild_image (dd_next next stack) (zip_dict_decode s)
  | ZBack => rebuild_image (bd_next next MAX_RING_BUFFER_SIZE pr) (zip_back_decode s)
  end.
