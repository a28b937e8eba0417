(** * Model of what the Huffman encoder prints (src/huf.rs:144-146).

    The encoder of Huf.v once more, with its output.  The text of the line is the [Debug]
    form of the writer's error, which is not modelled. *)
From Verif Require Import Base Ser Bit Utils Huf Img Says.

(** The line, on standard error *)
Inductive cry := CodeLost.   (* src/huf.rs:145 *)

(** [.unwrap()] of something that has printed *)
Definition says_unwrap {M A} (m : says M writer A) : says M writer A := fun w =>
  let '(o, (r, w)) := m w in (o, (unwrap r, w)).
(** [map_err(|e| eprintln!("{:?}", e))] (src/huf.rs:145) *)
Definition cry_on_error {A} (m : io A) : says cry writer A := fun w =>
  match m w with
  | (Err, w) => ([CodeLost], (Err, w))
  | r => ([], r)
  end.
(** src/huf.rs:138-147 *)
Definition enc_encode_says {A} (eqb : A -> A -> bool) (codes : list (A * bit_arr)) (symbol : A) (st : bw) : says cry writer bw :=
  match hm_get eqb symbol codes with
  | None => hush io_fail
  | Some code => if (ba_len code =? 0)%N then hush (io_ret st) else cry_on_error (bw_write_arr code st)
  end.
(** src/huf.rs:37-39 *)
Fixpoint payload_says {A} (eqb : A -> A -> bool) (codes : list (A * bit_arr)) (items : list A) (st : bw) : says cry writer bw :=
  match items with
  | [] => hush (io_ret st)
  | x :: items => says_bind (says_unwrap (enc_encode_says eqb codes x st)) (fun st => payload_says eqb codes items st)
  end.
(** src/huf.rs:22-43 *)
Definition huf_encode_says {A} (eqb : A -> A -> bool) (sa : A -> io unit)
    (ord : list (A * N) -> list (A * N)) (H : heap (suffix A)) (items : list A) : says cry writer unit :=
  says_bind (hush (io_lift (build_tree H (ord (count_freqs eqb items))))) (fun dec =>
  says_bind (hush (io_lift (enc_from eqb dec))) (fun enc =>
  says_bind (hush (ser_trie sa dec)) (fun _ =>
  says_bind (payload_says eqb enc items (bw_new MsbFirst)) (fun st =>
  hush (io_bind (bw_pad_and_flush st) (fun _ => io_ret tt)))))).
(** src/codec/hufc.rs:12-17 *)
Definition hufman_encode_says (ord : list (rgb N * N) -> list (rgb N * N)) (H : heap (suffix (rgb N))) (im : img) : says cry writer unit :=
  says_bind (hush (ser (TPair TU32 TU32) (im_w im, im_h im))) (fun _ =>
  huf_encode_says rgb_eqb (ser (TRgb TU8)) ord H (map to_rgb (im_px im))).
