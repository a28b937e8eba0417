(** * Model of src/zip/back.rs: the look-back compressor.

    What is printed is in BackSays.v.  [usize] positions are [N]; they count bytes
    of the input, so they are taken not to overflow 64 bits.  The ring size is a
    parameter [R] ([const N: usize] in Rust); the compressor uses
    [MAX_RING_BUFFER_SIZE] = 65535. *)
From Verif Require Import Base Ser Utils Dict.

(** ** Symbols (src/zip/back.rs:23-107) *)
Inductive symbol := Explicit (data : list N) | LookBack (len back : N).

(** [u16::rotate_right(1)], [u16::rotate_left(1)] *)
Definition ror16 (x : N) : N := N.lor (N.shiftr x 1) (N.land (N.shiftl x 15) 65535).
(** [u16::rotate_left(1)] *)
Definition rol16 (x : N) : N := N.lor (N.land (N.shiftl x 1) 65535) (N.shiftr x 15).
(** src/zip/back.rs:40-42 *)
Definition mask (msb : N) : N := ror16 msb.
(** src/zip/back.rs:37 *)
Definition ENUM_CODE_EXPLICIT : N := 0.
(** src/zip/back.rs:38 *)
Definition ENUM_CODE_LOOKBACK : N := 1.
(** src/zip/back.rs:44-49; [len as u16] is exact after the assertion *)
Definition compress_len (len enum_decider : N) : res N :=
  res_bind (assert_ (len <=? N.shiftr 65535 1)%N) (fun _ => Ok (N.lor len (mask enum_decider))).
(** src/zip/back.rs:51-59; [!mask] on u16 is [65535 - mask] *)
Definition decompress_len (c : N) : N * N :=
  let m := mask 1 in
  let msb := (rol16 (N.land c m) mod 256)%N in
  (msb, N.land c (65535 - m)%N).

(** src/zip/back.rs:63-88 *)
Definition ser_symbol (s : symbol) : io unit :=
  match s with
  | Explicit data =>
      io_bind (io_lift (compress_len (N.of_nat (length data)) ENUM_CODE_EXPLICIT)) (fun clen =>
      io_bind (ser_u16 clen) (fun _ => io_iter ser_u8 data))
  | LookBack len back =>
      io_bind (io_lift (compress_len len ENUM_CODE_LOOKBACK)) (fun clen =>
      io_bind (ser_u16 clen) (fun _ =>
      io_bind (io_lift (assert_ (back <=? 65535)%N)) (fun _ => ser_u16 back)))
  end.
(** src/zip/back.rs:90-107 *)
Definition deser_symbol : deserializer symbol := fun S next =>
  rd_bind (deser_u16 S next) (fun clen =>
  let '(enum_decider, len) := decompress_len clen in
  if (enum_decider =? ENUM_CODE_EXPLICIT)%N then
    rd_bind (take_next next (N.to_nat len)) (fun data =>
    rd_bind (rd_lift (assert_ (N.of_nat (length data) =? len)%N)) (fun _ => rd_ret (Explicit data)))
  else if (enum_decider =? ENUM_CODE_LOOKBACK)%N then
    rd_bind (deser_u16 S next) (fun back => rd_ret (LookBack len back))
  else rd_panic).

(** ** RingBuffer (src/zip/back.rs:349-487), for bytes *)
Record ring := mkRing { rb_data : list N; rb_start : N; rb_wpos : N }.
Section Ring.
  Variable R : N.

  (** src/zip/back.rs:356-364 *)
  Definition rb_default : ring := mkRing (repeat 0%N (N.to_nat R)) 0 0.
  (** src/zip/back.rs:376-378 *)
  Definition wrapped_around (r : ring) : bool := (0 <? rb_start r)%N.
  (** src/zip/back.rs:367-374 *)
  Definition rb_contains (r : ring) (pos : N) : bool :=
    if wrapped_around r then (rb_start r <=? pos)%N else (pos <? rb_wpos r)%N.
  (** src/zip/back.rs:386-393 *)
  Definition valid_slice (r : ring) : list N :=
    if wrapped_around r then rb_data r else firstn (N.to_nat (rb_wpos r)) (rb_data r).
  (** src/zip/back.rs:398-405 *)
  Definition rb_len (r : ring) : N := if wrapped_around r then R else rb_wpos r.
  (** src/zip/back.rs:426-440 *)
  Definition as_slices (r : ring) : list N * list N :=
    if wrapped_around r
    then (skipn (N.to_nat (rb_wpos r)) (rb_data r), firstn (N.to_nat (rb_wpos r)) (rb_data r))
    else (valid_slice r, []).
  (** [&l[k..]]: out of bounds panics *)
  Definition slice_from (l : list N) (k : N) : res (list N) :=
    if (k <=? N.of_nat (length l))%N then Ok (skipn (N.to_nat k) l) else Panic.
  (** src/zip/back.rs:407-424: the bytes the iterator will produce *)
  Definition iter_starting (p : profile) (r : ring) (iter_start : N) : res (list N) :=
    let '(l, rt) := as_slices r in
    res_bind (usub p (2 ^ 64) iter_start (rb_start r)) (fun rel_start =>
    if (rel_start <=? N.of_nat (length l))%N
    then res_bind (slice_from l rel_start) (fun l => Ok (l ++ rt))
    else res_bind (usub p (2 ^ 64) rel_start (N.of_nat (length l))) (fun right_skip => slice_from rt right_skip)).
  (** src/zip/back.rs:442-457; writing past the array panics *)
  Definition rb_write (r : ring) (x : N) : res ring :=
    let first_wrap := (rb_wpos r =? R)%N && (rb_start r =? 0)%N in
    let wpos := if (rb_wpos r =? R)%N then 0%N else rb_wpos r in
    let start := if (0 <? rb_start r)%N || first_wrap then (rb_start r + 1)%N else rb_start r in
    if (wpos <? N.of_nat (length (rb_data r)))%N
    then Ok (mkRing (set_nth (rb_data r) (N.to_nat wpos) x) start (wpos + 1)%N)
    else Panic.
  (** src/zip/back.rs:459-462 *)
  Definition lookback_value (p : profile) (r : ring) (pos : N) : res N :=
    res_bind (usub p (2 ^ 64) pos (rb_start r)) (fun rel_pos => usub p (2 ^ 64) (rb_len r) rel_pos).
  (** src/zip/back.rs:464-467 *)
  Definition lookback_pos (p : profile) (r : ring) (pos : N) : res N :=
    res_bind (usub p (2 ^ 64) (rb_len r) pos) (fun d => ufit p (2 ^ 64) (d + rb_start r)%N).
  (** src/zip/back.rs:469-471 *)
  Definition read_pos (r : ring) : N := (rb_start r + rb_len r)%N.
  (** src/zip/back.rs:473-478 *)
  Definition lookback_sequence (p : profile) (r : ring) (len back : N) : res (list N) :=
    res_bind (lookback_pos p r back) (fun global_start =>
    res_bind (iter_starting p r global_start) (fun l => Ok (firstn (N.to_nat len) l))).
  (** src/zip/back.rs:481-487 *)
  Fixpoint rb_write_all (r : ring) (xs : list N) : res ring :=
    match xs with
    | [] => Ok r
    | x :: xs => res_bind (rb_write r x) (fun r => rb_write_all r xs)
    end.
End Ring.

(** src/zip/back.rs:143, 291 *)
Definition MIN_REP : nat := 6.
(** src/zip/back.rs:291 *)
Definition MAX_RING_BUFFER_SIZE : N := 65535.

(** ** Index (src/zip/back.rs:501-580) *)
Definition key_eqb (a b : list N) : bool := if list_eq_dec N.eq_dec a b then true else false.
(** src/zip/back.rs:501-505 *)
Record bindex := mkIdx {
  ix_old : list (list N * list N); ix_new : list (list N * list N); ix_incomplete : list (N * list N) }.
(** src/zip/back.rs:510-516 *)
Definition index_new : bindex := mkIdx [] [] [].
(** src/zip/back.rs:518-535 *)
Definition start_indices_for (ix : bindex) (key : list N) (r : ring) : list N :=
  let entry_iter m := filter (rb_contains r) (match hm_get key_eqb key m with Some v => v | None => [] end) in
  entry_iter (ix_old ix) ++ entry_iter (ix_new ix).
(** src/zip/back.rs:562-579 *)
Definition update_incomplete_keys (inc : list (N * list N)) (latest_byte latest_pos : N)
  : res (option (N * list N) * list (N * list N)) :=
  let inc := map (fun pk => (fst pk, snd pk ++ [latest_byte])) (inc ++ [(latest_pos, [])]) in
  match inc with
  | [] => Panic                                                     (* unwrap, line 569 *)
  | (pos, k) :: rest => if (length k =? MIN_REP)%nat then Ok (Some (pos, k), rest) else Ok (None, inc)
  end.
(** src/zip/back.rs:538-560 *)
Definition index_update (R : N) (ix : bindex) (latest_byte latest_pos : N) : res bindex :=
  res_bind (update_incomplete_keys (ix_incomplete ix) latest_byte latest_pos) (fun '(new_key, inc) =>
  let new := match new_key with
             | Some (key_pos, key_val) => hm_upsert key_eqb key_val (fun v => v ++ [key_pos]) [key_pos] (ix_new ix)
             | None => ix_new ix
             end in
  if (latest_pos mod R =? 0)%N && negb (is_nil new)
  then Ok (mkIdx new [] inc)
  else Ok (mkIdx (ix_old ix) new inc)).

(** ** IndexedHistory (src/zip/back.rs:294-346) *)
Record ihist := mkHist { ih_data : ring; ih_index : bindex }.
(** src/zip/back.rs:300-305 *)
Definition ih_new (R : N) : ihist := mkHist (rb_default R) index_new.
(** src/zip/back.rs:331-339 *)
Definition ih_write (R : N) (h : ihist) (b : N) : res ihist :=
  let pos := read_pos R (ih_data h) in
  res_bind (rb_write R (ih_data h) b) (fun data =>
  res_bind (index_update R (ih_index h) b pos) (fun ix => Ok (mkHist data ix))).
(** src/zip/back.rs:341-345 *)
Fixpoint ih_write_all (R : N) (h : ihist) (bs : list N) : res ihist :=
  match bs with
  | [] => Ok h
  | b :: bs => res_bind (ih_write R h b) (fun h => ih_write_all R h bs)
  end.

(** ** Buffered (src/zip/back.rs:584-643) *)
Record buffered (S : Type) := mkBuf { bf_iter : S; bf_saved : list N; bf_pos : nat }.
Arguments mkBuf {S}. Arguments bf_iter {S}. Arguments bf_saved {S}. Arguments bf_pos {S}.
(** src/zip/back.rs:599-601 *)
Definition bf_restore {S} (b : buffered S) : buffered S := mkBuf (bf_iter b) (bf_saved b) 0.
(** src/zip/back.rs:603-609; [read_pos] below [n] is a panic here (a wrapped
    counter in a release build): the theorems show it does not happen. *)
Definition bf_accept {S} (b : buffered S) (n : nat) : res (buffered S) :=
  res_bind (assert_ (n <=? length (bf_saved b))%nat) (fun _ =>
  if (n <=? bf_pos b)%nat then Ok (mkBuf (bf_iter b) (skipn n (bf_saved b)) (bf_pos b - n)) else Panic).
(** src/zip/back.rs:611-643 *)
Definition bf_next {S} (next : nextf S N) : nextf (buffered S) N := fun b =>
  let can_read b := (bf_pos b <? length (bf_saved b))%nat in
  let '(r, b) :=
    if can_read b then (Ok tt, b)
    else match next (bf_iter b) with
         | (Ok x, s) => (Ok tt, mkBuf s (bf_saved b ++ [x]) (bf_pos b))
         | (Err, s) => (Ok tt, mkBuf s (bf_saved b) (bf_pos b))
         | (Panic, s) => (Panic, mkBuf s (bf_saved b) (bf_pos b))
         end in
  match r with
  | Ok _ => let b' := if can_read b then mkBuf (bf_iter b) (bf_saved b) (Datatypes.S (bf_pos b)) else b in
            match nth_error (bf_saved b) (bf_pos b) with
            | Some x => (Ok x, b')
            | None => (Err, b')
            end
  | _ => (Panic, b)
  end.

(** ** Encoder (src/zip/back.rs:111-287) *)
Record benc (S : Type) := mkBE { be_history : ihist; be_input : buffered S; be_rep : list N; be_calls : nat }.
Arguments mkBE {S}. Arguments be_history {S}. Arguments be_input {S}. Arguments be_rep {S}. Arguments be_calls {S}.

Section Encoder.
  (** [R]: ring size.  [caps i]: the capacity of [rep_buf] at the [i]-th call of
      [more_data]: [Vec] promises only that it is at least what was asked for. *)
  Context {S : Type} (next : nextf S N) (R : N) (pr : profile) (caps : nat -> nat).

  (** A method of [self.input] *)
  Definition lift_in {A} (m : rd (buffered S) A) : rd (benc S) A := fun e =>
    let '(r, b) := m (be_input e) in (r, mkBE (be_history e) b (be_rep e) (be_calls e)).
  (** A method of [self.input] that changes it *)
  Definition set_in (f : buffered S -> res (buffered S)) : rd (benc S) unit := fun e =>
    match f (be_input e) with
    | Ok b => (Ok tt, mkBE (be_history e) b (be_rep e) (be_calls e))
    | Err => (Err, e)
    | Panic => (Panic, e)
    end.
  (** A method of [self.history] that changes it *)
  Definition set_hist (f : ihist -> res ihist) : rd (benc S) unit := fun e =>
    match f (be_history e) with
    | Ok h => (Ok tt, mkBE h (be_input e) (be_rep e) (be_calls e))
    | Err => (Err, e)
    | Panic => (Panic, e)
    end.
  (** Reading a field *)
  Definition get {A} (f : benc S -> A) : rd (benc S) A := fun e => (Ok (f e), e).
  Local Open Scope rd_scope.

  (** [(a == b)] prefix: [zip], [take_while], [count] (lines 266-269) *)
  Fixpoint common (a b : list N) : nat :=
    match a, b with
    | x :: a, y :: b => if (x =? y)%N then Datatypes.S (common a b) else O
    | _, _ => O
    end.
  (** src/zip/back.rs:262-275: the loop over [subseqs_starting] (lines 307-329) *)
  Fixpoint best_of (r : ring) (rep : list N) (idxs : list N) (max_len max_back : N) : res (N * N) :=
    match idxs with
    | [] => Ok (max_len, max_back)
    | i :: idxs =>
        res_bind (iter_starting pr r i) (fun subseq =>
        res_bind (lookback_value R pr r i) (fun lookback =>
        let rep_len := N.of_nat (common rep subseq) in
        if (max_len <? rep_len)%N then best_of r rep idxs rep_len lookback
        else best_of r rep idxs max_len max_back))
    end.
  (** src/zip/back.rs:253-277 *)
  Definition buffered_repetition (e : benc S) : res (option (N * N)) :=
    if (length (be_rep e) <? MIN_REP)%nat then Ok None
    else let h := be_history e in
         res_bind (best_of (ih_data h) (be_rep e)
                     (start_indices_for (ih_index h) (firstn MIN_REP (be_rep e)) (ih_data h)) 0 0)
                  (fun lb => Ok (Some lb)).
  (** src/zip/back.rs:215-217 *)
  Definition more_data : rd (benc S) unit := fun e =>
    match take_next (bf_next next) (caps (be_calls e)) (be_input e) with
    | (Ok l, b) => (Ok tt, mkBE (be_history e) b (be_rep e ++ l) (Datatypes.S (be_calls e)))
    | (Err, b) => (Panic, mkBE (be_history e) b (be_rep e) (be_calls e))
    | (Panic, b) => (Panic, mkBE (be_history e) b (be_rep e) (be_calls e))
    end.
  (** [rep_buf.clear()] *)
  Definition clear_rep : rd (benc S) unit := fun e => (Ok tt, mkBE (be_history e) (be_input e) [] (be_calls e)).
  (** src/zip/back.rs:226-250 *)
  Fixpoint repetition_loop (fuel : nat) : rd (benc S) (option (N * N)) :=
    match fuel with
    | O => rd_panic
    | Datatypes.S fuel =>
        r <- get buffered_repetition ;;
        lb <- rd_lift r ;;
        match lb with
        | Some (len, back) =>
            prev_len <- get (fun e => length (be_rep e)) ;;
            if (len =? N.of_nat prev_len)%N then
              _ <- more_data ;;
              new_len <- get (fun e => length (be_rep e)) ;;
              if (new_len =? prev_len)%nat then rd_ret lb else repetition_loop fuel
            else rd_ret lb
        | None => rd_ret None
        end
    end.
  (** src/zip/back.rs:214-251 *)
  Definition next_repetition (fuel : nat) : rd (benc S) (option (N * N)) :=
    _ <- clear_rep ;; _ <- more_data ;; repetition_loop fuel.

  (** src/zip/back.rs:281-284 *)
  Fixpoint commit_loop (n : nat) : rd (benc S) unit :=
    match n with
    | O => rd_ret tt
    | Datatypes.S n =>
        b <- rd_unwrap (lift_in (bf_next next)) ;;
        _ <- set_hist (fun h => ih_write R h b) ;;
        commit_loop n
    end.
  (** src/zip/back.rs:279-286 *)
  Definition commit_bytes (n : nat) : rd (benc S) unit :=
    _ <- set_in (fun b => Ok (bf_restore b)) ;;
    _ <- commit_loop n ;;
    set_in (fun b => bf_accept b n).

  (** src/zip/back.rs:151-155 *)
  Definition push_explicit (curr_explicit : list N) : list symbol :=
    if is_nil curr_explicit then [] else [Explicit curr_explicit].
  (** src/zip/back.rs:163-186: the new bytes, and whether the input is depleted *)
  Definition extend_explicit (curr_explicit : list N) : rd (benc S) (list N * bool) :=
    _ <- set_in (fun b => Ok (bf_restore b)) ;;
    let try_to_get := Nat.max (length curr_explicit) 2 in
    new_bytes <- lift_in (take_next (bf_next next) try_to_get) ;;
    _ <- set_in (fun b => bf_accept b (length new_bytes)) ;;
    _ <- set_hist (fun h => ih_write_all R h new_bytes) ;;
    rd_ret (curr_explicit ++ new_bytes, (length new_bytes <? try_to_get)%nat).
  (** src/zip/back.rs:188-211: the symbols pushed on the channel *)
  Fixpoint symbols_loop (fuel : nat) (curr_explicit : list N) : rd (benc S) (list symbol) :=
    match fuel with
    | O => rd_panic
    | Datatypes.S fuel' =>
        rep <- next_repetition fuel ;;
        let other :=
          rd_bind (extend_explicit curr_explicit) (fun '(curr_explicit, must_return) =>
          if must_return : bool then rd_ret (push_explicit curr_explicit) else symbols_loop fuel' curr_explicit) in
        match rep with
        | Some (len, back) =>
            if (N.of_nat MIN_REP <=? len)%N then
              _ <- commit_bytes (N.to_nat len) ;;
              rd_ret (push_explicit curr_explicit ++ [LookBack len back])
            else other
        | None => other
        end
    end.
  (** src/zip/back.rs:148-212 *)
  Definition next_symbols (fuel : nat) : rd (benc S) (list symbol) := symbols_loop fuel [].

  (** src/zip/back.rs:9-14 *)
  Fixpoint back_encode_loop (fuel : nat) (steps : nat) (e : benc S) : io unit :=
    match steps with
    | O => io_panic
    | Datatypes.S steps =>
        match next_symbols fuel e with
        | (Ok [], _) => io_ret tt
        | (Ok channel, e) => io_bind (io_iter ser_symbol channel) (fun _ => back_encode_loop fuel steps e)
        | (_, _) => io_panic
        end
    end.
  (** src/zip/back.rs:117-125 *)
  Definition benc_new (s : S) : benc S := mkBE (ih_new R) (mkBuf s [] 0) [] 0.
  (** src/zip/back.rs:5-16, for any ring size *)
  Definition back_encode (fuel : nat) (s : S) : io unit := back_encode_loop fuel fuel (benc_new s).
End Encoder.

(** src/zip/back.rs:5-16.  [fuel] bounds every loop of the model; running out of it
    is a [Panic], which the theorems exclude. *)
Definition zip_back_encode {S} (next : nextf S N) (pr : profile) (caps : nat -> nat) (fuel : nat) (s : S) : io unit :=
  back_encode next MAX_RING_BUFFER_SIZE pr caps fuel s.

(** ** Decoder (src/zip/back.rs:645-706) *)
Record bdec (S : Type) := mkBD { bd_iter : S; bd_history : ring; bd_decoded : list N }.
Arguments mkBD {S}. Arguments bd_iter {S}. Arguments bd_history {S}. Arguments bd_decoded {S}.
Section Decoder.
  Context {S : Type} (next : nextf S N) (R : N) (pr : profile).
  (** src/zip/back.rs:668-674 *)
  Definition bdec_new (s : S) : bdec S := mkBD s (rb_default R) [].
  (** src/zip/back.rs:678-693, 697-705 *)
  Definition decode_next (d : bdec S) : res (bdec S) :=
    match deser_symbol S next (bd_iter d) with
    | (Ok (Explicit data), s) =>
        res_bind (rb_write_all R (bd_history d) data) (fun h => Ok (mkBD s h (bd_decoded d ++ data)))
    | (Ok (LookBack len back), s) =>
        res_bind (lookback_sequence R pr (bd_history d) len back) (fun bytes =>
        res_bind (rb_write_all R (bd_history d) bytes) (fun h => Ok (mkBD s h (bd_decoded d ++ bytes))))
    | (Err, s) => Ok (mkBD s (bd_history d) (bd_decoded d))
    | (Panic, s) => Panic
    end.
  (** src/zip/back.rs:657-664 *)
  Definition bd_next : nextf (bdec S) N := fun d =>
    match bd_decoded d with
    | b :: rest => (Ok b, mkBD (bd_iter d) (bd_history d) rest)
    | [] => match decode_next d with
            | Ok d => match bd_decoded d with
                      | b :: rest => (Ok b, mkBD (bd_iter d) (bd_history d) rest)
                      | [] => (Err, d)
                      end
            | _ => (Panic, d)
            end
    end.
End Decoder.
(** src/zip/back.rs:19-21 *)
Definition zip_back_decode {S} (s : S) : bdec S := bdec_new MAX_RING_BUFFER_SIZE s.
