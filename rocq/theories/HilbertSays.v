(** * Model of what the hilbert(rle) encoder and the Huffman decoder print
    (src/codec/hilbertc.rs:34, 41, 133 and src/codec/hufc.rs:30, 32).

    The functions of HilbertC.v and Img.v once more, with their output in order. *)
From Coq Require Import String.
From Verif Require Import Base Ser Bit Utils Huf Dict Img Float HilbertC Prs Special Says.
Close Scope string_scope.
Open Scope list_scope.

(** The lines *)
Inductive notice :=
| UsingExact             (* src/codec/hilbertc.rs:34 *)
| UsingApprox            (* src/codec/hilbertc.rs:41 *)
| MaxReached (n : N)     (* src/codec/hilbertc.rs:133 *)
| SymbolFailed           (* src/codec/hufc.rs:30, on standard error *)
| StreamEnded.           (* src/codec/hufc.rs:32, on standard error *)
(** Their texts, without the line feed *)
Definition notice_text (n : notice) : text :=
  match n with
  | UsingExact => txt "RLE: using exact"
  | UsingApprox => txt "RLE: using approx"
  | MaxReached n => txt "Max number of repetitions reached: " ++ decimal n
  | SymbolFailed => txt "Failed to decode symbol"
  | StreamEnded => txt "Reached the end of the stream"
  end.

Section Rle.
  Context {T : Type} (C : criteria T).
  (** src/codec/hilbertc.rs:127-143 *)
  Fixpoint rle_loop_says (iter : list T) (c : cr C) (count : N) : list notice * res (N * rle C) :=
    match iter with
    | [] => ([], Ok (count, mkRle [] c None))
    | x :: iter =>
        match accept C x c with
        | Ok (true, c) =>
            let count := (count + 1)%N in
            if (count =? 255)%N then ([MaxReached count], Ok (count, mkRle iter c None)) else rle_loop_says iter c count
        | Ok (false, c) => ([], Ok (count, mkRle iter c (Some x)))
        | Err => ([], Err)
        | Panic => ([], Panic)
        end
    end.
  (** src/codec/hilbertc.rs:118-151 *)
  Definition rle_next_says : says notice (rle C) (N * T) := fun r =>
    let first := match rl_last r with
                 | Some x => Some (x, rl_iter r)
                 | None => match rl_iter r with x :: iter => Some (x, iter) | [] => None end
                 end in
    match first with
    | None => ([], (Err, mkRle [] (rl_crit r) None))
    | Some (next_val, iter) =>
        let '(o, l) := rle_loop_says iter (start_sequence C next_val (rl_crit r)) 1%N in
        (o, match l with
            | Ok (count, r) =>
                match end_repetition C (rl_crit r) with
                | Ok (color, c) => (Ok (count, color), mkRle (rl_iter r) c (rl_last r))
                | _ => (Panic, r)
                end
            | _ => (Panic, r)
            end)
    end.
  (** src/codec/hilbertc.rs:35-38, 42-45 *)
  Fixpoint rle_write_says (ser_t : T -> io unit) (fuel : nat) (r : rle C) : says notice writer unit :=
    match fuel with
    | O => hush io_panic
    | S fuel =>
        match rle_next_says r with
        | (o, (Ok (count, color), r)) =>
            after o (says_bind (hush (ser_u8 count)) (fun _ => says_bind (hush (ser_t color)) (fun _ => rle_write_says ser_t fuel r)))
        | (o, (Err, _)) => after o (hush (io_ret tt))
        | (o, (Panic, _)) => after o (hush io_panic)
        end
    end.
End Rle.
Arguments rle_write_says {T C}. Arguments rle_next_says {T C}. Arguments rle_loop_says {T}.

(** src/codec/hilbertc.rs:26-53.  The line comes before the first pixel is read.  As in
    HilbertC.v the pixels are then read at once; that could only be observed if a
    position were outside the image.  [Zip] prints nothing here; for the lines of the
    compressor itself see DictImgSays.v. *)
Definition hilbert_says (scan : scanner) (fuel : nat) (m : method) (im : img) : says notice writer unit :=
  says_bind (hush (ser (TPair TU32 TU32) (im_w im, im_h im))) (fun _ =>
  match m with
  | RLE d => if feq d (f64_of_N 0)
             then says_bind (utter UsingExact) (fun _ =>
                  says_bind (hush (io_lift (linearize_rect scan im))) (fun l =>
                  rle_write_says (ser (TRgb TU8)) fuel (rle_exact rgb_eqb (map to_rgb l))))
             else says_bind (utter UsingApprox) (fun _ =>
                  says_bind (hush (io_lift (linearize_rect scan im))) (fun l =>
                  rle_write_says (ser (TRgb TU8)) fuel (rle_approx (map to_rgb l) d)))
  | MZip => says_bind (hush (io_lift (linearize_rect scan im))) (fun l =>
            hush (zip_dict_encode (ss_next (ser (TRgb TU8))) fuel (ss_from_iter (map to_rgb l))))
  end).

(** src/codec/hufc.rs:19-40; the lines of [hufman_decode] *)
Definition hufman_says (fuel : nat) {S} (next : nextf S N) (s : S) : list notice * option (res img) :=
  match create_image_buffer_standard next s with
  | (Ok (w, h, _), s) =>
      match huf_decode_all (deser (TRgb TU8)) fuel next s with
      | None => ([], None)
      | Some (Ok (t, bits), _) =>
          match rd_repeat (dec_next t next) (w * h)%N bits with
          | (Ok l, _) => ([], Some (Ok (from_rgb w h l)))
          | (Err, bits) =>
              match dec_next t next bits with
              | (Panic, _) => ([SymbolFailed], Some Panic)
              | (Err, _) => ([SymbolFailed; StreamEnded], Some Err)
              | (Ok _, _) => ([SymbolFailed], Some Err)
              end
          | (Panic, _) => ([], Some Panic)
          end
      | Some (Err, _) => ([], Some Err)
      | Some (Panic, _) => ([], Some Panic)
      end
  | (Err, _) => ([], Some Err)
  | (Panic, _) => ([], Some Panic)
  end.
