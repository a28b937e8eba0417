(** * Model of src/hilbert.rs and src/codec/hilbertc.rs.

    The [println!]s are not modelled.  The space-filling curve of the [zhang_hilbert]
    crate is an argument [scan]: the positions it visits for given dimensions. *)
From Verif Require Import Base Ser Bit Utils Huf Dict Img Float.

(** ** src/hilbert.rs *)
Definition scanner := N -> N -> list (N * N).
(** [next_power_of_two] on u32: a debug build panics, a release build gives 0, if it
    does not fit *)
Definition npot (p : profile) (n : N) : res N :=
  let r := (if n =? 0 then 1 else 2 ^ N.log2_up n)%N in
  if (r <? 2 ^ 32)%N then Ok r else match p with Debug => Panic | Release => Ok 0%N end.
(** map with a failing function, left to right *)
Fixpoint res_mapM {A B} (f : A -> res B) (l : list A) : res (list B) :=
  match l with
  | [] => Ok []
  | x :: l => res_bind (f x) (fun y => res_bind (res_mapM f l) (fun l => Ok (y :: l)))
  end.
(** src/hilbert.rs:10-12, 34-43: the traversal used by the codecs *)
Definition linearize_rect (scan : scanner) (im : img) : res (list rgba) :=
  res_mapM (get_pixel im) (scan (im_w im) (im_h im)).
(** src/hilbert.rs:15-22 *)
Definition linearize_small (p : profile) (scan : scanner) (im : img) : res (list rgba) :=
  res_bind (npot p (im_w im)) (fun nx =>
  res_bind (npot p (im_h im)) (fun ny =>
  let order := N.min (N.shiftr nx 1) (N.shiftr ny 1) in
  res_mapM (get_pixel im) (scan order order))).
(** src/hilbert.rs:25-32 *)
Definition linearize_large (p : profile) (scan : scanner) (im : img) : res (list rgba) :=
  res_bind (npot p (im_w im)) (fun nx =>
  res_bind (npot p (im_h im)) (fun ny =>
  let order := N.max nx ny in
  res_mapM (get_pixel im)
    (filter (fun '(x, y) => (x <? im_w im) && (y <? im_h im))%N (scan order order)))).

(** ** AbstractRle (src/codec/hilbertc.rs:97-158) *)
(** src/codec/hilbertc.rs:154-158 [Criteria]: state, and the three methods *)
Record criteria (T : Type) := mkCrit {
  cr : Type;
  start_sequence : T -> cr -> cr;
  accept : T -> cr -> res (bool * cr);
  end_repetition : cr -> res (T * cr) }.
Arguments cr {T}. Arguments start_sequence {T}. Arguments accept {T}. Arguments end_repetition {T}.

Section Rle.
  Context {T : Type} (C : criteria T).
  (** src/codec/hilbertc.rs:99-103 *)
  Record rle := mkRle { rl_iter : list T; rl_crit : cr C; rl_last : option T }.
  (** src/codec/hilbertc.rs:127-143: the loop; [count] is u8 and never passes 255 *)
  Fixpoint rle_loop (iter : list T) (c : cr C) (count : N) : res (N * rle) :=
    match iter with
    | [] => Ok (count, mkRle [] c None)
    | x :: iter =>
        res_bind (accept C x c) (fun '(ok, c) =>
        if ok : bool then
          let count := (count + 1)%N in
          if (count =? 255)%N then Ok (count, mkRle iter c None) else rle_loop iter c count
        else Ok (count, mkRle iter c (Some x)))
    end.
  (** src/codec/hilbertc.rs:118-151 *)
  Definition rle_next : nextf rle (N * T) := fun r =>
    let first := match rl_last r with
                 | Some x => Some (x, rl_iter r)
                 | None => match rl_iter r with x :: iter => Some (x, iter) | [] => None end
                 end in
    match first with
    | None => (Err, mkRle [] (rl_crit r) None)
    | Some (next_val, iter) =>
        match rle_loop iter (start_sequence C next_val (rl_crit r)) 1%N with
        | Ok (count, r) =>
            match end_repetition C (rl_crit r) with
            | Ok (color, c) => (Ok (count, color), mkRle (rl_iter r) c (rl_last r))
            | _ => (Panic, r)
            end
        | _ => (Panic, r)
        end
    end.
  (** src/codec/hilbertc.rs:35-38, 42-45: [for (count, color) in rle_...(iter)].
      [fuel] bounds the number of runs; running out is a [Panic], which the theorems
      exclude. *)
  Fixpoint rle_write (ser_t : T -> io unit) (fuel : nat) (r : rle) : io unit :=
    match fuel with
    | O => io_panic
    | S fuel =>
        match rle_next r with
        | (Ok (count, color), r) =>
            io_bind (ser_u8 count) (fun _ => io_bind (ser_t color) (fun _ => rle_write ser_t fuel r))
        | (Err, _) => io_ret tt
        | (Panic, _) => io_panic
        end
    end.
End Rle.
Arguments rle_write {T C}. Arguments rle_next {T C}. Arguments mkRle {T C}. Arguments rl_iter {T C}. Arguments rl_crit {T C}. Arguments rl_last {T C}.

(** ** rle_exact (src/codec/hilbertc.rs:162-196) *)
Definition exact {T} (eqb : T -> T -> bool) : criteria T := mkCrit T (option T)
  (fun start_val _ => Some start_val)
  (fun x c => match c with Some y => Ok (eqb y x, c) | None => Panic end)
  (fun c => match c with Some y => Ok (y, None) | None => Panic end).
(** src/codec/hilbertc.rs:162-164, 106-112 *)
Definition rle_exact {T} (eqb : T -> T -> bool) (l : list T) : rle (exact eqb) := @mkRle T (exact eqb) l None None.

(** ** rle_approx (src/codec/hilbertc.rs:200-300) *)
Definition map3 {A B} (f : A -> B) (c : rgb A) : rgb B := let '(r, g, b) := c in (f r, f g, f b).
(** src/codec/hilbertc.rs:251-254 [RunningAvg] *)
Record running_avg := mkAvg { av_sum : rgb f64; av_count : N }.
(** src/codec/hilbertc.rs:287-290 *)
Definition as_f64 (c : rgb N) : rgb f64 := map3 f64_of_N c.
(** src/codec/hilbertc.rs:257-262 *)
Definition avg_new (c : rgb N) : running_avg := mkAvg (as_f64 c) 1.
(** src/codec/hilbertc.rs:264-269 *)
Definition avg_add (a : running_avg) (x : rgb N) : running_avg :=
  let '(sr, sg, sb) := av_sum a in let '(r, g, b) := x in
  mkAvg (fadd sr (f64_of_N r), fadd sg (f64_of_N g), fadd sb (f64_of_N b)) (av_count a + 1).
(** src/codec/hilbertc.rs:271-274 *)
Definition avg_f64 (a : running_avg) : rgb f64 := map3 (fun x => fdiv x (f64_of_N (av_count a))) (av_sum a).
(** src/codec/hilbertc.rs:278-281 *)
Definition safe_convert (x : f64) : res N :=
  res_bind (assert_ (fle x (f64_of_N 255))) (fun _ => Ok (f64_as_u8 (fround x))).
(** src/codec/hilbertc.rs:276-284 *)
Definition avg (a : running_avg) : res (rgb N) :=
  let '(r, g, b) := avg_f64 a in
  res_bind (safe_convert r) (fun r => res_bind (safe_convert g) (fun g =>
  res_bind (safe_convert b) (fun b => Ok (r, g, b)))).
(** src/codec/hilbertc.rs:293-299 [dist]; the accumulator starts at 0.0 *)
Definition dist_f64 (a b : rgb f64) : f64 :=
  let '(a0, a1, a2) := a in let '(b0, b1, b2) := b in
  fsqrt (fadd (fadd (fadd (f64_of_N 0) (fsqr (fsub a0 b0))) (fsqr (fsub a1 b1))) (fsqr (fsub a2 b2))).
(** src/codec/hilbertc.rs:204-246 [Approx] *)
Definition approx (allow : f64) : criteria (rgb N) := mkCrit (rgb N) (option running_avg)
  (fun start_val _ => Some (avg_new start_val))
  (fun x c => match c with
              | Some a => let ok := fle (dist_f64 (avg_f64 a) (as_f64 x)) allow in
                          Ok (ok, Some (if ok then avg_add a x else a))
              | None => Panic
              end)
  (fun c => match c with Some a => res_bind (avg a) (fun x => Ok (x, None)) | None => Panic end).
(** src/codec/hilbertc.rs:200-202 *)
Definition rle_approx (l : list (rgb N)) (d : f64) : rle (approx d) := @mkRle (rgb N) (approx d) l None None.

(** ** RleDecoder (src/codec/hilbertc.rs:304-333) *)
Record rle_dec (S : Type) := mkRD { rd_bytes : S; rd_color : rgb N; rd_count : N }.
Arguments mkRD {S}. Arguments rd_bytes {S}. Arguments rd_color {S}. Arguments rd_count {S}.
(** src/codec/hilbertc.rs:311-317 *)
Definition rle_dec_new {S} (s : S) : rle_dec S := mkRD s black 0.
(** src/codec/hilbertc.rs:323-332 *)
Definition rle_dec_next {S} (next : nextf S N) : nextf (rle_dec S) (rgb N) := fun d =>
  if (rd_count d =? 0)%N then
    match deser_u8 S next (rd_bytes d) with
    | (Ok count, s) =>
        if (0 <? count)%N then
          match deser (TRgb TU8) S next s with
          | (Ok color, s) => (Ok color, mkRD s color (count - 1)%N)
          | (_, s) => (Panic, mkRD s (rd_color d) count)                   (* unwrap, line 327 *)
          end
        else (Panic, mkRD s (rd_color d) count)                            (* assert, line 326 *)
    | (Err, s) => (Err, mkRD s (rd_color d) (rd_count d))
    | (Panic, s) => (Panic, mkRD s (rd_color d) (rd_count d))
    end
  else (Ok (rd_color d), mkRD (rd_bytes d) (rd_color d) (rd_count d - 1)%N).

(** ** Hilbert (src/codec/hilbertc.rs:12-94) *)
Inductive method := RLE (d : f64) | MZip.

(** src/codec/hilbertc.rs:26-53 *)
Definition hilbert_encode (scan : scanner) (fuel : nat) (m : method) (im : img) : io unit :=
  io_bind (ser (TPair TU32 TU32) (im_w im, im_h im)) (fun _ =>
  io_bind (io_lift (linearize_rect scan im)) (fun l =>
  let iter := map to_rgb l in
  match m with
  | RLE d => if feq d (f64_of_N 0)
             then rle_write (ser (TRgb TU8)) fuel (rle_exact rgb_eqb iter)
             else rle_write (ser (TRgb TU8)) fuel (rle_approx iter d)
  | MZip => zip_dict_encode (ss_next (ser (TRgb TU8))) fuel (ss_from_iter iter)
  end)).

(** [*img_buffer.get_pixel_mut(x, y) = color]: panics out of bounds *)
Definition set_pixel (w h : N) (buf : list (rgb N)) (p : N * N) (c : rgb N) : res (list (rgb N)) :=
  let '(x, y) := p in
  if ((x <? w) && (y <? h))%N then Ok (set_nth buf (px_index w x y) c) else Panic.
(** [positions.zip(colors).for_each(set)]: [zip] asks for a position first *)
Fixpoint paint {S} (nextc : nextf S (rgb N)) (w h : N) (ps : list (N * N)) (s : S) (buf : list (rgb N))
  : res (list (rgb N)) :=
  match ps with
  | [] => Ok buf
  | p :: ps => match nextc s with
               | (Ok c, s) => res_bind (set_pixel w h buf p c) (fun buf => paint nextc w h ps s buf)
               | (Err, _) => Ok buf
               | (Panic, _) => Panic
               end
  end.
(** src/codec/hilbertc.rs:56-65 *)
Definition decode_any {S} (scan : scanner) (w h : N) (nextc : nextf S (rgb N)) (s : S) : res img :=
  res_bind (buffer_new w h) (fun buf =>
  res_bind (paint nextc w h (scan w h) s buf) (fun buf => Ok (from_rgb w h buf))).
(** src/codec/hilbertc.rs:55-79 *)
Definition hilbert_decode (scan : scanner) (stack : nat) (m : method) {S} (next : nextf S N) (s : S) : res img :=
  match deser (TPair TU32 TU32) S next s with
  | (Ok (w, h), s) =>
      match m with
      | RLE _ => decode_any scan w h (rle_dec_next next) (rle_dec_new s)
      | MZip => decode_any scan w h (deser_stream (deser (TRgb TU8)) (dd_next next stack)) (zip_dict_decode s)
      end
  | (Err, _) => Err
  | (Panic, _) => Panic
  end.
(** src/codec/hilbertc.rs:89-94 *)
Definition hilbert_is_lossless (m : method) : bool :=
  match m with RLE d => feq d (f64_of_N 0) | MZip => true end.

(** ** Delta (src/codec/hilbertc.rs:399-571) *)
(** src/codec/hilbertc.rs:516 [SignedColor([i16; 3])] *)
Definition signed_color := list Z.
(** src/codec/hilbertc.rs:518-525 *)
Definition signed_of (c : rgb N) : signed_color := map Z.of_N (rgb_list c).
(** [i16] arithmetic: overflow panics in a debug build, wraps in a release build *)
Definition i16_fit (p : profile) (z : Z) : res Z :=
  if ((-32768 <=? z) && (z <? 32768))%Z then Ok z
  else match p with Debug => Panic | Release => Ok ((z + 32768) mod 65536 - 32768)%Z end.
(** The loops [for i in 0..3] of [Sub] and [Add], on i16 *)
Fixpoint zip_fit (p : profile) (f : Z -> Z -> Z) (a b : signed_color) : res signed_color :=
  match a, b with
  | x :: a, y :: b => res_bind (i16_fit p (f x y)) (fun z => res_bind (zip_fit p f a b) (fun l => Ok (z :: l)))
  | _, _ => Ok []
  end.
(** src/codec/hilbertc.rs:539-548 *)
Definition sc_sub (p : profile) (a b : signed_color) : res signed_color := zip_fit p Z.sub a b.
(** src/codec/hilbertc.rs:550-559 *)
Definition sc_add (p : profile) (a b : signed_color) : res signed_color := zip_fit p Z.add a b.
(** src/codec/hilbertc.rs:527-537; [Err] if a channel is not in 0..=255 *)
Definition rgb_of_signed (c : signed_color) : res (rgb N) :=
  match c with
  | [r; g; b] =>
      let ok z := ((0 <=? z) && (z <? 256))%Z in
      if ok r && ok g && ok b then Ok (Z.to_N r, Z.to_N g, Z.to_N b) else Err
  | _ => Panic                                                              (* arrays have 3 elements *)
  end.
(** src/codec/hilbertc.rs:445 *)
Definition START : signed_color := [0; 0; 0]%Z.
(** src/codec/hilbertc.rs:454-477: all the differences of a sequence *)
Fixpoint diff_stream (p : profile) (last : signed_color) (l : list (rgb N)) : res (list signed_color) :=
  match l with
  | [] => Ok []
  | c :: l => let new_signed := signed_of c in
              res_bind (sc_sub p new_signed last) (fun diff =>
              res_bind (diff_stream p new_signed l) (fun ds => Ok (diff :: ds)))
  end.
(** src/codec/hilbertc.rs:482-509; state: the inner iterator and [last_color] *)
Definition from_diff_next (p : profile) {S} (nextd : nextf S signed_color) : nextf (S * signed_color) (rgb N) :=
  fun '(s, last_color) =>
    match nextd s with
    | (Ok new_diff, s) =>
        match sc_add p last_color new_diff with
        | Ok new_signed => (unwrap (rgb_of_signed new_signed), (s, new_signed))
        | _ => (Panic, (s, last_color))
        end
    | (Err, s) => (Err, (s, last_color))
    | (Panic, s) => (Panic, (s, last_color))
    end.
(** The derived [==] of [SignedColor] *)
Definition sc_eqb (a b : signed_color) : bool := if list_eq_dec Z.eq_dec a b then true else false.
(** src/codec/hilbertc.rs:561-571: the array impl, no length prefix *)
Definition sc_ty : ty := TArr 3 TI16.

(** src/codec/hilbertc.rs:405-415 *)
Definition delta_encode (p : profile) (scan : scanner)
    (ord : list (signed_color * N) -> list (signed_color * N)) (H : heap (suffix signed_color)) (im : img) : io unit :=
  io_bind (ser (TPair TU32 TU32) (im_w im, im_h im)) (fun _ =>
  io_bind (io_lift (linearize_rect scan im)) (fun l =>
  io_bind (io_lift (diff_stream p START (map to_rgb l))) (fun ds =>
  huf_encode_all sc_eqb (ser sc_ty) ord H ds))).
(** src/codec/hilbertc.rs:417-431.  [fuel]: depth of the tree reader ([None] when it
    runs out). *)
Definition delta_decode (p : profile) (scan : scanner) (fuel : nat) {S} (next : nextf S N) (s : S) : option (res img) :=
  match create_image_buffer_standard next s with
  | (Ok (w, h, buf), s) =>
      match huf_decode_all (deser sc_ty) fuel next s with
      | None => None
      | Some (Ok (t, bits), _) =>
          Some (res_bind (paint (from_diff_next p (dec_next t next)) w h (scan w h) (bits, START) buf)
                         (fun buf => Ok (from_rgb w h buf)))
      | Some (_, _) => Some Panic                                             (* unwrap, line 422 *)
      end
  | (Err, _) => Some Err
  | (Panic, _) => Some Panic
  end.
